(* Copy-on-write: any number of file systems over one repository, any history. *)
From Verif Require Import Base AddrModel CowModel CowSpec CowProofs CowWalk CowObj CowCopy CowOps CowChange CowFlush CowFrame CowLive CowAlive CowAlive2.
Open Scope Z_scope.

(* ---- one operation in one file system ---- *)

Lemma cell_put : forall a v c o, f_cell (put_fs a v c o) v = c.
Proof. intros. cbn. apply put_same. Qed.

Lemma step_one : forall F T a s o r s', Inv F T a s -> good_op o -> run_op o s = (r, s') ->
  (o = Fork -> forall x, r <> Ok x) ->
  (exists T', Inv F T' (next a o r) s') /\ lv s' = lv s /\ allowed a o (oF s) r.
Proof.
  intros F T a s o r s' I G H NF. destruct o; cbn [run_op good_op] in *; unfold bind at 1 in H.
  - (* Read *)
    destruct (op_read v s) as [r1 s1] eqn:E. destruct (op_read_ok _ _ _ _ _ _ _ I G E) as (I1 & F1 & N1 & O1).
    pose proof (fo_lv _ _ F1) as L.
    destruct r1 as [d| |]; injection H as <- <-; [| |congruence]; (split; [exists T; auto|]); (split; [auto|]).
    + exists d. auto.
    + intros C d Q. destruct (op_read_live _ _ _ _ _ _ I G C Q) as (s2 & E2). congruence.
  - (* Write *)
    destruct (op_write rm v f s) as [r1 s1] eqn:E. pose proof (op_write_ok _ _ _ _ _ _ _ _ _ I G E) as P.
    assert (L : lv s1 = lv s) by (pose proof (me_lv _ _ (mm_write rm v f s)) as Q; rewrite E in Q; exact Q).
    destruct r1 as [u| |]; injection H as <- <-; [| |contradiction].
    + destruct P as (T1 & d & P1 & P2 & P3 & _). split; [|split; [auto|split; auto]]. exists T1. cbn [next].
      eapply Inv_weaken; [exact P1| | |auto]; intros w; cbn.
      * intros _. destruct (vad_dec w v) as [[_ ->]|[_ N]]; [|rewrite !put_other by auto; right; auto].
        rewrite !put_same. destruct (f_cell a v) as [| |d0] eqn:C; [congruence|left; auto|].
        destruct (lossy a v) eqn:Lo; [left; auto|]. right. rewrite (P3 d0); auto.
      * auto.
    + split; [destruct P as (T1 & P); exists T1; exact P|]. split; [auto|]. intros C NB. destruct (f_cell a v) as [| |d] eqn:Q; [auto|destruct NB; exists v; auto|].
      destruct (op_write_alive _ _ _ _ rm _ f _ I G C Q NB) as (s2 & E2). congruence.
  - (* Over *)
    destruct (op_write rm v (fun _ => d) s) as [r1 s1] eqn:E. pose proof (op_write_ok _ _ _ _ _ _ _ _ _ I G E) as P.
    assert (L : lv s1 = lv s) by (pose proof (me_lv _ _ (mm_write rm v (fun _ => d) s)) as Q; rewrite E in Q; exact Q).
    destruct r1 as [u| |]; injection H as <- <-; [| |contradiction].
    + destruct P as (T1 & d1 & P1 & P2 & _). split; [|split; [auto|split; auto]]. exists T1. exact P1.
    + split; [destruct P as (T1 & P); exists T1; exact P|]. split; [auto|]. intros C NB. destruct (f_cell a v) as [| |d0] eqn:Q; [auto|destruct NB; exists v; auto|].
      destruct (op_write_alive _ _ _ _ rm _ (fun _ => d) _ I G C Q NB) as (s2 & E2). congruence.
  - (* Claim *)
    destruct (op_claim v s) as [r1 s1] eqn:E. pose proof (op_claim_ok _ _ _ _ _ _ _ I G E) as P.
    destruct r1 as [u| |]; injection H as <- <-; [| |contradiction].
    + destruct P as (P1 & T1 & P2 & P3 & _). split; [exists T1; auto|]. split; [apply (fo_lv _ _ P3)|]. split; auto.
    + destruct P as (T1 & P2 & P3). split; [exists T1; auto|]. split; [apply (fo_lv _ _ P3)|].
      intros C Q. destruct (op_claim_alive _ _ _ _ _ I G C Q) as (s2 & E2). congruence.
  - (* Spawn *)
    destruct (op_spawn v d s) as [r1 s1] eqn:E. pose proof (op_spawn_ok _ _ _ _ _ _ _ _ I G E) as P.
    assert (L : lv s1 = lv s) by (pose proof (me_lv _ _ (mm_spawn v d s)) as Q; rewrite E in Q; exact Q).
    destruct r1 as [u| |]; injection H as <- <-; [| |contradiction].
    + destruct P as (P1 & T1 & P2). split; [exists T1; auto|]. split; [auto|]. split; auto.
    + destruct P as (T1 & P). split; [exists T1; auto|]. split; [auto|].
      intros C NB Q. destruct (op_spawn_alive _ _ _ _ _ d I G C Q NB) as (s2 & E2). congruence.
  - (* Remove *)
    destruct (op_remove v s) as [r1 s1] eqn:E. pose proof (op_remove_ok _ _ _ _ _ _ _ I G E) as P.
    assert (L : lv s1 = lv s) by (pose proof (ow_lv _ _ (om_remove v s)) as Q; rewrite E in Q; exact Q).
    destruct r1 as [u| |]; injection H as <- <-; [| |contradiction]; destruct P as (T1 & P);
    (split; [exists T1; exact P|]); (split; [auto|]).
    + reflexivity.
    + intros C NB. destruct (f_cell a v) as [| |d0] eqn:Q; [auto|destruct NB; exists v; auto|].
      destruct (op_remove_alive _ _ _ _ _ _ I G C Q NB) as (s2 & E2). congruence.
  - (* FlushV *)
    destruct (op_flush_v v s) as [r1 s1] eqn:E. destruct (op_flush_v_ok _ _ _ _ _ _ _ I E) as (P1 & P2 & P3).
    pose proof (fl_lv _ _ P2) as L.
    destruct r1 as [u| |]; injection H as <- <-; (split; [exists T; exact P1|]); (split; [auto|]); cbn; auto.
    intros C. destruct (f_err a) eqn:NE; auto. destruct (op_flush_v_alive _ _ _ _ v I C NE) as (s2 & E2 & _). congruence.
  - (* FlushU *)
    destruct (op_flush_u lk s) as [r1 s1] eqn:E. destruct (op_flush_u_ok _ _ _ _ _ _ _ I E) as (P1 & P2 & P3).
    pose proof (fl_lv _ _ P2) as L.
    destruct r1 as [u| |]; injection H as <- <-; (split; [exists T; exact P1|]); (split; [auto|]); cbn; auto; try congruence.
    intros C. destruct (op_flush_u_alive _ _ _ _ lk I C) as (s2 & E2 & _). congruence.
  - (* FlushSb *)
    destruct (op_flush_sb s) as [r1 s1] eqn:E. destruct (op_flush_sb_ok _ _ _ _ _ _ I E) as (P1 & P2 & P3 & _).
    pose proof (fl_lv _ _ P2) as L.
    destruct r1 as [u| |]; injection H as <- <-; (split; [exists T; exact P1|]); (split; [auto|]); cbn; auto; try congruence.
    intros C. destruct (op_flush_sb_alive _ C) as (s2 & E2). congruence.
  - (* EvictV *)
    destruct (op_evict_v v s) as [r1 s1] eqn:E. destruct (op_evict_v_ok _ _ _ _ _ _ _ I E) as (P1 & ->).
    assert (L : lv s1 = lv s) by (pose proof (me_lv _ _ (mm_evict_v v s)) as Q; rewrite E in Q; exact Q).
    injection H as <- <-. split; [exists T; exact P1|]. split; auto. reflexivity.
  - (* EvictU *)
    destruct (op_evict_u lk s) as [r1 s1] eqn:E. destruct (op_evict_u_ok _ _ _ _ _ _ _ I E) as (P1 & ->).
    assert (L : lv s1 = lv s) by (pose proof (me_lv _ _ (mm_evict_u lk s)) as Q; rewrite E in Q; exact Q).
    injection H as <- <-. split; [exists T; exact P1|]. split; auto. reflexivity.
  - (* DropLru *)
    destruct (op_drop_lru s) as [r1 s1] eqn:E. destruct (op_drop_lru_ok _ _ _ _ _ _ I E) as (P1 & ->).
    assert (L : lv s1 = lv s) by (pose proof (me_lv _ _ (mm_drop s)) as Q; rewrite E in Q; exact Q).
    injection H as <- <-. split; [exists T; exact P1|]. split; auto. reflexivity.
  - (* Remount *)
    destruct (op_remount s) as [r1 s1] eqn:E. destruct (op_remount_ok _ _ _ _ _ _ I E) as (P1 & P2 & _ & P3).
    destruct r1 as [u| |]; injection H as <- <-; (split; [exists T; exact P1|]); (split; [auto|]); cbn; auto.
    intros C. destruct (f_err a) eqn:NE; auto. destruct (op_remount_alive _ _ _ _ I C NE) as (s2 & E2). congruence.
  - (* Fork *)
    destruct (op_fork s) as [r1 s1] eqn:E. destruct (op_fork_ok _ _ _ _ _ _ I E) as (P1 & P2).
    destruct r1 as [x| |]; injection H as <- <-.
    + exfalso. eapply NF; reflexivity.
    + destruct P2 as (P2 & P3). split; [exists T; exact P2|]. split; [apply (fl_lv _ _ P3)|].
      intros C. destruct (f_err a) eqn:NE; auto. destruct (op_fork_alive _ _ _ _ I C NE) as (x & s2 & E2). congruence.
    + destruct P2 as (P2 & P3). split; [exists T; exact P2|]. split; [apply (fl_lv _ _ P3)|]. cbn. auto.
Qed.

(* ---- the others ---- *)

Lemma Inv_others : forall F T a s s1 L (F' : Z -> Prop),
  Inv F T a s ->
  L <> lv s -> ~ F L -> L < nx s1 -> nx s <= nx s1 ->
  (forall l, F' l -> F l \/ l = L) -> (forall l, F l -> F' l) ->
  (forall l k, l <> L -> get (sU s1) (l :: k) = get (sU s) (l :: k)) ->
  (forall l k, l <> L -> get (sV s1) (l :: k) = get (sV s) (l :: k)) ->
  sb s1 = sb s -> cU s1 = cU s -> uam s1 = uam s -> cV s1 = cV s -> oB s1 = [] -> boot s1 = boot s -> sid s1 = sid s ->
  Inv F' T a s1.
Proof.
  intros F T a s s1 L F' I NL NF LN NX FA FB HU HV E1 E2 E3 E4 E5 E6 E7.
  assert (LF : forall v l r, vw T v = Some (Some l, r) -> l <> L).
  { intros v l r Q. apply vw_link in Q. destruct (link_at_F _ _ _ _ _ _ (iv_n _ _ _ _ I) Q) as [->|Q2]; congruence. }
  constructor; auto.
  - pose proof (iv_n _ _ _ _ I) as N. unfold NIs in *. rewrite E1, E2, E3. destruct N. constructor; auto.
    + intros Q. destruct (FA _ Q); [auto|]. unfold lv in NL. congruence.
    + lia.
    + intros l Q. destruct (FA _ Q) as [R| ->]; [|auto]. specialize (ni_Fn _ R). lia.
    + intros k x Hx. destruct (ni_l _ _ Hx); auto.
    + intros vs p x Hx j. destruct (ni_leaf _ _ _ Hx j) as (l & Q & [R|R]); exists l; auto.
    + intros lk c Hc. destruct (ni_key _ _ Hc) as (l & k & Q1 & Q2 & Q3 & Q4). exists l, k. split; [auto|]. split; [lia|]. auto.
    + intros k x Hx. specialize (ni_cell _ _ Hx). unfold cellok in *. rewrite HU; auto.
      destruct (ni_l _ _ Hx) as [Q|Q]; [unfold lv in NL; congruence|]. intros R. rewrite R in Q. auto.
  - pose proof (iv_o _ _ _ _ I) as O. unfold OIs in *. rewrite E1, E4. destruct O. constructor; auto.
    assert (ST : forall v d, stored (vw T) (sV s) v d -> stored (vw T) (sV s1) v d).
    { intros v d (l & r & A & B). exists l, r. split; auto. rewrite HV; eauto. }
    intros v d G H. specialize (oi_val _ _ G H). destruct (get (cV s) (vkey v)); auto.
    destruct oi_val as [Q1 [Q2|Q2]]; auto.
  - rewrite E6, E7. apply (iv_boot _ _ _ _ I).
  - rewrite E7. pose proof (iv_sid _ _ _ _ I). lia.
  - rewrite E4. intros k c Hc. pose proof (iv_clv _ _ _ _ I _ _ Hc). lia.
Qed.

(* ---- lists ---- *)

Lemma nth_upd : forall A (l : list A) j x k, (j < length l)%nat ->
  nth_error (firstn j l ++ x :: skipn (S j) l) k = if Nat.eqb k j then Some x else nth_error l k.
Proof.
  intros A l. induction l as [|y l IH]; intros j x k H; cbn in H; [lia|].
  destruct j as [|j]; cbn [firstn skipn app].
  - destruct k; auto.
  - destruct k as [|k]; auto. cbn [nth_error Nat.eqb]. rewrite IH by lia. auto.
Qed.
Lemma len_upd : forall A (l : list A) j x, (j < length l)%nat -> length (firstn j l ++ x :: skipn (S j) l) = length l.
Proof.
  intros. rewrite app_length, firstn_length. cbn [length]. rewrite skipn_length. lia.
Qed.
Lemma nth_setnth : forall A (l : list A) j x k, (j < length l)%nat ->
  nth_error (setnth l j x) k = if Nat.eqb k j then Some x else nth_error l k.
Proof.
  intros A l. induction l as [|y l IH]; intros j x k H; cbn in H; [lia|].
  destruct j as [|j]; cbn [setnth].
  - destruct k; auto.
  - destruct k as [|k]; auto. cbn [nth_error Nat.eqb]. apply IH. lia.
Qed.
Lemma len_setnth : forall A (l : list A) j x, length (setnth l j x) = length l.
Proof. intros A l. induction l as [|y l IH]; intros [|j] x; cbn; auto. Qed.
Lemma nth_last : forall A (l : list A) x k, nth_error (l ++ [x]) k =
  if Nat.eqb k (length l) then Some x else nth_error l k.
Proof.
  intros A l x k. destruct (Nat.eqb_spec k (length l)) as [->|N].
  - rewrite nth_error_app2 by lia. rewrite Nat.sub_diag. auto.
  - destruct (Nat.lt_ge_cases k (length l)).
    + apply nth_error_app1; auto.
    + rewrite (proj2 (nth_error_None l k)) by lia. apply nth_error_None. rewrite app_length. cbn. lia.
Qed.

(* ---- all of them ---- *)

Definition ilv (i : inst) : Z := sb_lv (i_sb i).
Record SI (F : Z -> Prop) (y : sys) (al : list fs) : Prop := mkSI {
  si_len : length al = length (y_inst y);
  si_inv : forall j i a, nth_error (y_inst y) j = Some i -> nth_error al j = Some a ->
           exists T, Inv F T a (enter y i [] []);
  si_lv : forall j k i i', j <> k -> nth_error (y_inst y) j = Some i -> nth_error (y_inst y) k = Some i' -> ilv i <> ilv i' }.

Lemma enter_leave : forall y j s, oB s = [] -> enter (leave y j s) (inst_of s) [] [] = with_oF [] s.
Proof. intros y j s H. unfold enter, leave, inst_of, with_oF. cbn. rewrite H. auto. Qed.

Lemma SI_step : forall F y al j o f r y1, SI F y al -> good_op o -> sys_step y j o f [] = Some (r, y1) ->
  exists a, nth_error al j = Some a /\ allowed a o f r /\ exists F', SI F' y1 (next_all al j o r).
Proof.
  intros F y al j o f r y1 [LEN INV LVS] G H. unfold sys_step in H.
  destruct (nth_error (y_inst y) j) as [i|] eqn:Ei; [|discriminate].
  assert (Lj : (j < length (y_inst y))%nat) by (apply nth_error_Some; congruence).
  assert (Lj' : (j < length al)%nat) by lia.
  destruct (nth_error al j) as [a|] eqn:Ea; [|apply nth_error_None in Ea; lia].
  exists a. split; auto. destruct (INV _ _ _ Ei Ea) as (T & I0).
  assert (I : Inv F T a (enter y i f [])) by (exact (Inv_oF _ _ _ _ f I0)).
  set (s := enter y i f []) in *. destruct (run_op o s) as [r1 s1] eqn:E.
  pose proof (only_op o s) as ON. rewrite E in ON. cbn [snd] in ON. destruct ON as [ON1 ON2 ON3 ON4 ON5].
  assert (Ls : lv s = ilv i) by reflexivity.
  assert (NLF : ~ F (lv s)) by (apply (ni_lvF _ _ _ _ _ _ _ (iv_n _ _ _ _ I))).
  assert (NLN : lv s < nx s) by (apply (ni_lvn _ _ _ _ _ _ _ (iv_n _ _ _ _ I))).
  (* the instances other than j *)
  assert (OTH : forall (F' : Z -> Prop) y' k i' a', k <> j -> nth_error (y_inst y) k = Some i' -> nth_error al k = Some a' ->
     (forall l, F' l -> F l \/ l = lv s) -> (forall l, F l -> F' l) ->
     y_nx y' = nx s1 -> y_sU y' = sU s1 -> y_sV y' = sV s1 -> exists T', Inv F' T' a' (enter y' i' [] [])).
  { intros F' y' k i' a' Nk Hi Ha FA FB Q1 Q2 Q3. destruct (INV _ _ _ Hi Ha) as (T' & I'). exists T'.
    apply (Inv_others F T' a' (enter y i' [] []) (enter y' i' [] []) (lv s) F' I'); auto; cbn [enter nx sU sV]; rewrite ?Q1, ?Q2, ?Q3; auto.
    - rewrite Ls. intros Q. apply (LVS j k i i'); auto.
    - change (y_nx y) with (nx s). lia. }
  destruct (match o, r1 with Fork, Ok _ => true | _, _ => false end) eqn:FK.
  - (* a snapshot *)
    destruct o; try discriminate. destruct r1 as [an| |]; try discriminate. clear FK.
    cbn [run_op] in E. unfold bind in E. destruct (op_fork s) as [r2 s2] eqn:E2.
    pose proof (op_fork_ok _ _ _ _ _ _ I E2) as [_ P]. destruct r2 as [alt| |]; try discriminate.
    injection E as <- <-. destruct P as (b & P1 & P2 & P3 & P4 & P5 & P6 & P7 & P8 & P9).
    set (F' := fun l => F l \/ l = lv s) in *.
    replace (y_sS (leave y j s2)) with (sS s2) in H by reflexivity. rewrite P1 in H. injection H as <- <-.
    split. { eexists; reflexivity. } exists F'. unfold next_all. rewrite Ea. cbn [next].
    set (y' := mkSys _ _ _ _ _ _).
    assert (NTH : forall k, nth_error (y_inst y') k = if Nat.eqb k (length (y_inst y)) then Some (cold_inst b alt)
        else if Nat.eqb k j then Some (inst_of s2) else nth_error (y_inst y) k).
    { intros k. unfold y'. cbn [y_inst leave]. rewrite nth_last, len_upd by auto. destruct (Nat.eqb k (length (y_inst y))); auto.
      apply nth_upd; auto. }
    assert (NTA : forall k, nth_error (setnth al j (copy a) ++ [copy a]) k = if Nat.eqb k (length (y_inst y)) then Some (copy a)
        else if Nat.eqb k j then Some (copy a) else nth_error al k).
    { intros k. rewrite nth_last, len_setnth, LEN. destruct (Nat.eqb k (length (y_inst y))); auto. apply nth_setnth; auto. }
    constructor.
    + unfold y'. cbn [y_inst leave]. rewrite !last_length, len_setnth, len_upd; auto.
    + intros k i' a' Hi Ha. rewrite NTH in Hi. rewrite NTA in Ha. destruct (Nat.eqb_spec k (length (y_inst y))).
      * injection Hi as <-. injection Ha as <-. exists T. apply P9.
      * destruct (Nat.eqb_spec k j).
        -- injection Hi as <-. injection Ha as <-. exists T.
           assert (OB : oB s2 = []) by (apply (iv_b _ _ _ _ P8)).
           pose proof (Inv_oF _ _ _ _ [] P8) as Q. rewrite <- (enter_leave y j s2 OB) in Q. exact Q.
        -- apply (OTH F' y' k i' a'); auto. unfold F'. auto.
    + assert (OLD : forall k i', nth_error (y_inst y) k = Some i' -> ilv i' < nx s).
      { intros k i' Hk. destruct (nth_error al k) as [a'|] eqn:Hak.
        - destruct (INV _ _ _ Hk Hak) as (T' & I'). apply (ni_lvn _ _ _ _ _ _ _ (iv_n _ _ _ _ I')).
        - apply nth_error_None in Hak. assert (k < length (y_inst y))%nat by (apply nth_error_Some; congruence). lia. }
      change (lv s2) with (ilv (inst_of s2)) in *. change (sb_lv b) with (ilv (cold_inst b alt)) in *.
      intros k1 k2 i1 i2 N H1 H2. rewrite NTH in H1, H2.
      destruct (Nat.eqb_spec k1 (length (y_inst y))); destruct (Nat.eqb_spec k2 (length (y_inst y))); try congruence.
      * injection H1 as <-. destruct (Nat.eqb_spec k2 j); [injection H2 as <-; auto|]. apply OLD in H2. lia.
      * injection H2 as <-. destruct (Nat.eqb_spec k1 j); [injection H1 as <-; auto|]. apply OLD in H1. lia.
      * destruct (Nat.eqb_spec k1 j); destruct (Nat.eqb_spec k2 j); try congruence.
        -- injection H1 as <-. apply OLD in H2. lia.
        -- injection H2 as <-. apply OLD in H1. lia.
        -- eapply (LVS k1 k2); eauto.
  - (* anything else *)
    assert (NF : o = Fork -> forall x, r1 <> Ok x). { intros -> x ->. discriminate. }
    destruct (step_one _ _ _ _ _ _ _ I G E NF) as ((T1 & I1) & L1 & AL).
    assert (H' : r = r1 /\ y1 = leave y j s1).
    { injection H as H1 H2. split; auto. destruct r1 as [[d| |x]| |]; auto.
      exfalso. destruct o; cbn [run_op] in E; unfold bind in E;
      try (match type of E with context [match ?m with _ => _ end] => destruct m as [[]] end; discriminate). }
    destruct H' as [-> ->]. split; [exact AL|]. exists F.
    assert (NE : next_all al j o r1 = setnth al j (next a o r1)).
    { unfold next_all. rewrite Ea. destruct o; try (apply app_nil_r). destruct r1; try discriminate; apply app_nil_r. }
    rewrite NE.
    assert (NTH : forall k, nth_error (y_inst (leave y j s1)) k = if Nat.eqb k j then Some (inst_of s1) else nth_error (y_inst y) k).
    { intros k. cbn [y_inst leave]. apply nth_upd; auto. }
    assert (NTA : forall k, nth_error (setnth al j (next a o r1)) k = if Nat.eqb k j then Some (next a o r1) else nth_error al k).
    { intros k. apply nth_setnth; auto. }
    constructor.
    + rewrite len_setnth. cbn [y_inst leave]. rewrite len_upd; auto.
    + intros k i' a' Hi Ha. rewrite NTH in Hi. rewrite NTA in Ha. destruct (Nat.eqb_spec k j).
      * injection Hi as <-. injection Ha as <-. exists T1.
        assert (OB : oB s1 = []) by (apply (iv_b _ _ _ _ I1)). rewrite (enter_leave y j s1 OB). apply Inv_oF; auto.
      * apply (OTH F (leave y j s1) k i' a'); auto.
    + change (lv s1) with (ilv (inst_of s1)) in L1. rewrite Ls in L1.
      intros k1 k2 i1 i2 N H1 H2. rewrite NTH in H1, H2.
      destruct (Nat.eqb_spec k1 j); destruct (Nat.eqb_spec k2 j); try congruence.
      * injection H1 as <-. rewrite L1. subst. eapply (LVS j k2); eauto.
      * injection H2 as <-. rewrite L1. subst. eapply (LVS k1 j); eauto.
      * eapply (LVS k1 k2); eauto.
Qed.

Lemma SI_init : forall e, SI (fun _ => False) (sys_init e) [fs_new].
Proof.
  intros e. constructor; auto.
  - intros [|[|j]] i a Hi Ha; try discriminate. cbn in Hi, Ha. injection Hi as <-. injection Ha as <-.
    exists (fun _ => None). constructor; cbn; auto; try lia; try discriminate.
    + unfold NIs. cbn. constructor; cbn; auto; try lia; try discriminate.
      intros vs h p W. unfold lnk. destruct (h =? 6); reflexivity.
    + unfold OIs. cbn. constructor; cbn; auto; discriminate.
  - intros [|[|j]] [|[|k]] i i' N Hi Hk; try discriminate. congruence.
Qed.

Lemma runs_SI : forall y tr y2, runs y tr y2 -> forall F al, SI F y al ->
  (exists F', SI F' y2 (after al tr)) /\
  forall pre j o f r post, tr = pre ++ (j, o, f, r) :: post ->
    exists a, nth_error (after al pre) j = Some a /\ allowed a o f r.
Proof.
  intros y tr y2 H. induction H as [y|y j o f r y1 tr y2 G ST RU IH]; intros F al S.
  - split; [exists F; exact S|]. intros [|? ?] j o f r post Q; discriminate.
  - destruct (SI_step _ _ _ _ _ _ _ _ S G ST) as (a & A1 & A2 & F' & S'). destruct (IH _ _ S') as (B1 & B2).
    split; [exact B1|]. intros [|[[[j0 o0] f0] r0] pre] j' o' f' r' post Q.
    + injection Q as <- <- <- <- <-. exists a. auto.
    + injection Q as <- <- <- <- Q. apply (B2 _ _ _ _ _ _ Q).
Qed.
