(* Lemmas about one flush: what is queued, in which order, with which bytes. *)
From Coq Require Import Permutation.
From Verif Require Import Base AddrModel DirtyModel FlushModel TaskProps DirtyProps.

(* what is assumed of the parameters: the walk of a flush visits each object once (C30);
   encryption keeps the length *)
Record env_ok (e : env) : Prop := {
  v_walk_ok : forall l, Permutation (v_walk e l) l;
  v_enc_len : forall a r v b, v_enc e a r v = Some b -> zlen b = la_len a
}.

(* the object after sealing, and with a writable address *)
Definition sealed (e : env) (k : kind) (x : cont) : cont :=
  match k with KData => x | _ => with_view x (v_seal e (c_view x)) end.

Definition settle (e : env) (k : kind) (i : Z) (x : cont) : cont :=
  if is_vnode k && negb (v_mut e (c_laddr x)) then
    match v_refresh e i with Some l => with_llink x l | None => x end
  else x.

Section Flush.
Variables (e : env) (kd : Z -> kind).
Hypothesis EO : env_ok e.

(* the settled contents, as a function *)
Definition fin (c : Z -> cont) (i : Z) : cont := settle e (kd i) i (c i).

(* c1 is c with some objects of l re-addressed *)
Record adv (l : list Z) (c c1 : Z -> cont) : Prop := {
  ad_set : forall j, fin c1 j = fin c j;
  ad_out : forall j, ~ In j l -> c1 j = c j;
  ad_or : forall j, c1 j = c j \/ c1 j = fin c j
}.

Lemma adv_refl : forall l c, adv l c c.
Proof. intros. constructor; auto. Qed.

Lemma adv_trans : forall l c c1 c2, adv l c c1 -> adv l c1 c2 -> adv l c c2.
Proof.
  intros l c c1 c2 [A1 A2 A3] [B1 B2 B3]. constructor.
  - intro j. rewrite B1. apply A1.
  - intros j H. rewrite B2, A2 by exact H. reflexivity.
  - intro j. destruct (B3 j) as [->| ->]; [apply A3|]. right. apply A1.
Qed.

Lemma adv_weaken : forall l l' c c1, adv l c c1 -> (forall j, In j l -> In j l') -> adv l' c c1.
Proof. intros l l' c c1 [A1 A2 A3] H. constructor; auto. Qed.

Lemma adv_view : forall l c c1 j, adv l c c1 -> c_view (c1 j) = c_view (c j).
Proof.
  intros l c c1 j A. destruct (ad_or _ _ _ A j) as [->| ->]; [reflexivity|].
  unfold fin, settle. destruct (is_vnode (kd j) && negb (v_mut e (c_laddr (c j)))); [|reflexivity].
  destruct (v_refresh e j); reflexivity.
Qed.

(* an object passing both checks has its final address *)
Lemma resolve_adv : forall l c i c1, pre_resolve e (kd i) c i = Some c1 ->
  may_write e (kd i) (c_laddr (c1 i)) = true -> In i l ->
  adv l c c1 /\ c1 i = fin c i.
Proof.
  intros l c i c1 H M Hl. unfold pre_resolve in H. destruct (is_vnode (kd i)) eqn:V.
  2:{ injection H as <-. split; [apply adv_refl|]. unfold fin, settle. rewrite V. reflexivity. }
  destruct (v_mut e (c_laddr (c i))) eqn:U.
  { injection H as <-. split; [apply adv_refl|]. unfold fin, settle. rewrite V, U. reflexivity. }
  destruct (v_refresh e i) as [x|] eqn:R; [|discriminate]. injection H as <-.
  rewrite fset_same in M.
  assert (Mx : v_mut e (c_laddr (with_llink (c i) x)) = true).
  { unfold may_write in M. destruct (kd i); try exact M; discriminate. }
  assert (S : fin c i = with_llink (c i) x). { unfold fin, settle. rewrite V, U, R. reflexivity. }
  split; [|rewrite fset_same, S; reflexivity]. constructor.
  - intro j. destruct (Z.eq_dec j i) as [->|N].
    + rewrite S. unfold fin, settle. rewrite fset_same, V, Mx. reflexivity.
    + unfold fin. rewrite fset_other by congruence. reflexivity.
  - intros j N. rewrite fset_other; [reflexivity|]. intro X. subst. contradiction.
  - intro j. destruct (Z.eq_dec j i) as [->|N].
    + right. rewrite fset_same, S. reflexivity.
    + left. rewrite fset_other by congruence. reflexivity.
Qed.

(* even on errors only addresses change *)
Lemma resolve_view : forall c i c1, pre_resolve e (kd i) c i = Some c1 ->
  forall j, c_view (c1 j) = c_view (c j) /\ c_async (c1 j) = c_async (c j).
Proof.
  intros c i c1 H j. unfold pre_resolve in H. destruct (is_vnode (kd i)); [|injection H as <-; auto].
  destruct (v_mut e (c_laddr (c i))); [injection H as <-; auto|].
  destruct (v_refresh e i) as [x|]; [|discriminate]. injection H as <-.
  unfold fset. destruct (Z.eqb_spec j i) as [->|]; cbn; auto.
Qed.

Definition mem_of (c : Z -> cont) (i : Z) : laddr * Z * bool := (c_laddr (c i), i, is_inode (kd i)).
Definition ref_of (c : Z -> cont) (i : Z) : ref := (c_laddr (c i), c_riv (c i), c_view (c i)).

Lemma names_mem : forall c l, names (map (mem_of c) l) = l.
Proof. intros. unfold names. rewrite map_map. cbn. apply map_id. Qed.
Lemma addrs_mem : forall c l, addrs (map (mem_of c) l) = map (fun i => c_laddr (c i)) l.
Proof. intros. unfold addrs. rewrite map_map. reflexivity. Qed.

Lemma populate_ok : forall preq c q postq done c1 q1 refs1 preq1 postq1 C0,
  (forall j, fin c j = fin C0 j) ->
  shape q (map (mem_of (fin C0)) done) ->
  populate e kd c q (map (ref_of (fin C0)) done) preq postq = (None, c1, q1, refs1, preq1, postq1) ->
  exists taken, preq = taken ++ preq1 /\ postq1 = rev taken ++ postq
    /\ shape q1 (map (mem_of (fin C0)) (done ++ taken))
    /\ refs1 = map (ref_of (fin C0)) (done ++ taken)
    /\ s_id q1 = s_id q
    /\ adv preq c c1 /\ (forall j, In j taken -> c1 j = fin C0 j)
    /\ (done = [] -> preq <> [] -> taken <> [])
    /\ Forall (fun j => may_write e (kd j) (c_laddr (fin C0 j)) = true) taken.
Proof.
  induction preq as [|i preq IH]; intros c q postq done c1 q1 refs1 preq1 postq1 C0 HF S H;
    cbn [populate] in H.
  - injection H as <- <- <- <- <-. exists []. rewrite !app_nil_r. cbn.
    split; [reflexivity|]. split; [reflexivity|]. split; [exact S|]. split; [reflexivity|]. split; [reflexivity|].
    split; [apply adv_refl|]. split; [intros j []|]. split; [congruence|constructor].
  - destruct (pre_resolve e (kd i) c i) as [c2|] eqn:P; [|discriminate].
    destruct (may_write e (kd i) (c_laddr (c2 i))) eqn:M; cbn [negb] in H; [|discriminate].
    destruct (resolve_adv (i :: preq) _ _ _ P M (or_introl eq_refl)) as (A & B).
    assert (HF2 : forall j, fin c2 j = fin C0 j).
    { intro j. rewrite <- HF. apply (ad_set _ _ _ A). }
    assert (Bi : c2 i = fin C0 i). { rewrite B. apply HF. }
    rewrite Bi in H.
    destruct (append_next_ref q (c_laddr (fin C0 i)) i (is_inode (kd i))) as [q2|] eqn:Q.
    + unfold append_next_ref in Q. destruct (NREFS_MAX <=? zlen (s_lni q)); [discriminate|].
      destruct (shape_append _ _ _ _ _ _ S Q) as (S2 & I1 & I2 & I3).
      assert (E1 : map (mem_of (fin C0)) done ++ [(c_laddr (fin C0 i), i, is_inode (kd i))]
                   = map (mem_of (fin C0)) (done ++ [i])) by (rewrite map_app; reflexivity).
      rewrite E1 in S2.
      assert (E2 : map (ref_of (fin C0)) done ++ [(c_laddr (fin C0 i), c_riv (fin C0 i), c_view (fin C0 i))]
                   = map (ref_of (fin C0)) (done ++ [i])) by (rewrite map_app; reflexivity).
      rewrite E2 in H.
      destruct (IH _ _ _ _ _ _ _ _ _ _ HF2 S2 H) as (t & T1 & T2 & T3 & T4 & T5 & T6 & T7 & T8 & T9).
      exists (i :: t). rewrite <- app_assoc in T3, T4. cbn [app] in T3, T4.
      split; [cbn [app]; congruence|]. split; [cbn [rev]; rewrite <- app_assoc; exact T2|].
      split; [exact T3|]. split; [exact T4|]. split; [congruence|].
      split; [apply (adv_trans _ _ _ _ A); apply (adv_weaken _ _ _ _ T6); intros; right; assumption|].
      split; [intros j [<-|Hj]; [|exact (T7 j Hj)];
              destruct (ad_or _ _ _ T6 i) as [->| ->]; [exact Bi|apply HF2]|].
      split; [discriminate|]. constructor; [rewrite <- Bi; exact M|exact T9].
    + injection H as <- <- <- <- <-. exists []. rewrite !app_nil_r. cbn [app rev].
      split; [reflexivity|]. split; [reflexivity|]. split; [exact S|]. split; [reflexivity|].
      split; [reflexivity|]. split; [exact A|]. split; [intros j []|]. split; [|constructor].
      intros D _. subst done. cbn in S. exfalso. revert Q. unfold append_next_ref. rewrite append_empty by exact S.
      rewrite S. discriminate.
Qed.

(* a queued write whose members have their final contents c *)
Definition sq_ok (c : Z -> cont) (q : sqe) : Prop :=
  s_lni q <> []
  /\ Forall2 (fun i b => v_enc e (c_laddr (c i)) (c_riv (c i)) (c_view (c i)) = Some b) (s_lni q) (s_iov q)
  /\ shape q (map (mem_of c) (s_lni q)).

Lemma encrypt_ok : forall c l bs, encrypt_iovs e (map (ref_of c) l) = Some bs ->
  Forall2 (fun i b => v_enc e (c_laddr (c i)) (c_riv (c i)) (c_view (c i)) = Some b) l bs.
Proof.
  induction l as [|i l IH]; intros bs H; cbn [map encrypt_iovs ref_of] in H.
  - injection H as <-. constructor.
  - destruct (v_enc e (c_laddr (c i)) (c_riv (c i)) (c_view (c i))) as [b|] eqn:V; [|discriminate].
    destruct (encrypt_iovs e (map (ref_of c) l)) as [bs'|]; [|discriminate]. injection H as <-.
    constructor; [exact V|apply IH; reflexivity].
Qed.

Lemma setup_by_refs_ok : forall n refs al bs al1, setup_by_refs n e refs al = ((None, bs), al1) ->
  encrypt_iovs e refs = Some bs.
Proof.
  assert (A : forall refs al bs al1, assign_iovs e refs al = ((None, bs), al1) -> encrypt_iovs e refs = Some bs).
  { intros refs al bs al1 H. unfold assign_iovs in H. destruct (setup_iovs (length refs) al) as [ok al2].
    destruct ok; cbn [negb] in H; [|discriminate]. destruct (encrypt_iovs e refs); [congruence|discriminate]. }
  induction n as [|n IH]; intros refs al bs al1 H; cbn [setup_by_refs] in H.
  - exact (A _ _ _ _ H).
  - destruct (assign_iovs e refs al) as [[r b] al2] eqn:Q. cbn [fst snd] in H.
    destruct r as [[]|]; try discriminate.
    + exact (IH _ _ _ _ H).
    + injection H as -> ->. exact (A _ _ _ _ Q).
Qed.

Lemma make_sqe_ok : forall n ap al q ap1 al1, make_sqe n ap al = (Some q, ap1, al1) ->
  q = sqe_init (s_id q) /\ ap <= s_id q < ap1.
Proof.
  induction n as [|n IH]; intros ap al q ap1 al1 H; cbn [make_sqe] in H;
    destruct (pop true al) as [ok al2]; destruct ok.
  - injection H as <- <- <-. cbn. split; [reflexivity|lia].
  - discriminate.
  - injection H as <- <- <-. cbn. split; [reflexivity|lia].
  - destruct (IH _ _ _ _ _ H). split; [assumption|lia].
Qed.

Lemma make_sqe_apex : forall n ap al r ap1 al1, make_sqe n ap al = (r, ap1, al1) -> ap < ap1.
Proof.
  induction n as [|n IH]; intros ap al q ap1 al1 H; cbn [make_sqe] in H;
    destruct (pop true al) as [ok al2]; destruct ok.
  - injection H as <- <- <-. lia.
  - injection H as <- <- <-. lia.
  - injection H as <- <- <-. lia.
  - pose proof (IH _ _ _ _ _ H). lia.
Qed.

Fixpoint increasing (lo : Z) (l : list sqe) (hi : Z) {struct l} : Prop :=
  match l with
  | [] => lo <= hi
  | q :: r => lo <= s_id q /\ increasing (s_id q + 1) r hi
  end.

Lemma increasing_le : forall l lo hi, increasing lo l hi -> lo <= hi.
Proof. induction l as [|q l IH]; intros lo hi H; cbn in H; [exact H|]. destruct H as [H1 H2]. apply IH in H2. lia. Qed.
Lemma increasing_app : forall l1 l2 lo mid hi, increasing lo l1 mid -> increasing mid l2 hi ->
  increasing lo (l1 ++ l2) hi.
Proof.
  induction l1 as [|q l1 IH]; intros l2 lo mid hi H1 H2; cbn [app increasing] in *.
  - destruct l2 as [|x l2]; cbn [increasing] in *; [lia|]. destruct H2. split; [lia|assumption].
  - destruct H1. split; [assumption|]. eapply IH; eassumption.
Qed.

Lemma increasing_weaken : forall l lo lo' hi, increasing lo l hi -> lo' <= lo -> increasing lo' l hi.
Proof. intros [|q l] lo lo' hi H L; cbn in *; [lia|]. destruct H. split; [lia|assumption]. Qed.

Lemma increasing_bounds : forall l lo hi, increasing lo l hi -> Forall (fun q => lo <= s_id q < hi) l.
Proof.
  induction l as [|q l IH]; intros lo hi H; cbn in H; [constructor|]. destruct H as [H1 H2].
  constructor; [pose proof (increasing_le _ _ _ H2); lia|].
  apply IH in H2. eapply Forall_impl; [|exact H2]. cbn. intros. lia.
Qed.

Lemma enqueue_S : forall f l i preq postq,
  enqueue_dset (S f) e kd l (i :: preq) postq =
  match make_sqe 4 (l_apex l) (a_al (l_o l)) with
  | (None, ap, al) =>
      (Some ENOMEM, mkFl (l_c l) (l_txq l) ap (mkOrc al (a_st (l_o l)) (a_wr (l_o l))), postq)
  | (Some q, ap, al) =>
      match populate e kd (l_c l) q [] (i :: preq) postq with
      | (Some x, c1, _, _, _, postq1) =>
          (Some x, mkFl c1 (l_txq l) ap (mkOrc al (a_st (l_o l)) (a_wr (l_o l))), postq1)
      | (None, c1, q1, refs, preq1, postq1) =>
          match setup_by_refs 4 e refs al with
          | ((Some x, _), al1) =>
              (Some x, mkFl c1 (l_txq l) ap (mkOrc al1 (a_st (l_o l)) (a_wr (l_o l))), postq1)
          | ((None, bufs), al1) =>
              let (ok, st1) := pop true (a_st (l_o l)) in
              let o1 := mkOrc al1 st1 (a_wr (l_o l)) in
              if negb ok then (Some ESTAGE, mkFl c1 (l_txq l) ap o1, postq1)
              else
                let q2 := mkSqe (s_id q1) (s_laddr q1) (s_inode q1) (s_lni q1) bufs true in
                enqueue_dset f e kd (mkFl c1 (l_txq l ++ [q2]) ap o1) preq1 postq1
          end
      end
  end.
Proof. reflexivity. Qed.

Lemma enqueue_nil : forall f l postq, enqueue_dset f e kd l [] postq = (None, l, postq).
Proof. destruct f; reflexivity. Qed.

Lemma shape_names : forall q c l, shape q (map (mem_of c) l) -> s_lni q = l.
Proof.
  intros q c l S. destruct l as [|i l]; [exact S|]. cbn [map shape] in S. destruct S as (S & _).
  change (mem_of c i :: map (mem_of c) l) with (map (mem_of c) (i :: l)) in S.
  rewrite names_mem in S. exact S.
Qed.

Lemma enqueue_ok : forall f preq l postq l2 postq2 C0,
  (forall j, fin (l_c l) j = fin C0 j) ->
  enqueue_dset f e kd l preq postq = (None, l2, postq2) ->
  exists qs, l_txq l2 = l_txq l ++ qs /\ concat (map s_lni qs) = preq
    /\ postq2 = rev preq ++ postq
    /\ Forall (sq_ok (fin C0)) qs
    /\ adv preq (l_c l) (l_c l2) /\ (forall j, In j preq -> l_c l2 j = fin C0 j)
    /\ increasing (l_apex l) qs (l_apex l2)
    /\ Forall (fun j => may_write e (kd j) (c_laddr (fin C0 j)) = true) preq
    /\ a_wr (l_o l2) = a_wr (l_o l).
Proof.
  induction f as [|f IH]; intros preq l postq l2 postq2 C0 HF H.
  - destruct preq as [|i preq]; [|cbn in H; discriminate]. cbn in H. injection H as <- <-.
    exists []. rewrite app_nil_r. cbn. repeat split; auto using adv_refl; try constructor; try lia; contradiction.
  - destruct preq as [|i preq].
    { rewrite enqueue_nil in H. injection H as <- <-.
      exists []. rewrite app_nil_r. cbn. repeat split; auto using adv_refl; try constructor; try lia; contradiction. }
    rewrite enqueue_S in H.
    destruct (make_sqe 4 (l_apex l) (a_al (l_o l))) as [[r ap] al] eqn:MK.
    destruct r as [q|]; [|discriminate].
    destruct (make_sqe_ok _ _ _ _ _ _ MK) as (Q1 & Q2).
    destruct (populate e kd (l_c l) q [] (i :: preq) postq) as [[[[[r c1] q1] refs] preq1] postq1] eqn:P.
    destruct r as [x|]; [discriminate|].
    destruct (populate_ok (i :: preq) (l_c l) q postq [] c1 q1 refs preq1 postq1 C0 HF) as
      (t & T1 & T2 & T3 & T4 & T5 & T6 & T7 & T8 & T9).
    { rewrite Q1. reflexivity. } { exact P. }
    cbn [app] in T3, T4. specialize (T8 eq_refl ltac:(discriminate)).
    destruct (setup_by_refs 4 e refs al) as [[r bufs] al1] eqn:SB. destruct r as [x|]; [discriminate|].
    destruct (pop true (a_st (l_o l))) as [ok st1]. cbv zeta in H. destruct ok; cbn [negb] in H; [|discriminate].
    pose proof (setup_by_refs_ok _ _ _ _ _ SB) as EN. rewrite T4 in EN. apply encrypt_ok in EN.
    pose proof (shape_names _ _ _ T3) as NM.
    set (q2 := mkSqe (s_id q1) (s_laddr q1) (s_inode q1) (s_lni q1) bufs true) in *.
    assert (HF1 : forall j, fin c1 j = fin C0 j).
    { intro j. rewrite <- HF. apply (ad_set _ _ _ T6). }
    destruct (IH _ (mkFl c1 (l_txq l ++ [q2]) ap (mkOrc al1 st1 (a_wr (l_o l)))) _ _ _ C0 HF1 H) as (qs & E1 & E2 & E3 & E4 & E5 & E6 & E7 & E8 & E9).
    cbn [l_txq l_c l_apex l_o a_wr] in *.
    exists (q2 :: qs). split; [rewrite E1, <- app_assoc; reflexivity|].
    split; [cbn [map concat]; rewrite E2, T1; f_equal; exact NM|].
    split; [rewrite E3, T2, T1, rev_app_distr, app_assoc; reflexivity|].
    split.
    { constructor; [|exact E4]. unfold sq_ok. change (s_lni q2) with (s_lni q1). change (s_iov q2) with bufs.
      rewrite NM. split; [exact T8|]. split; [exact EN|].
      destruct t as [|j t]; [congruence|]. exact T3. }
    assert (INC : forall j, In j preq1 -> In j (i :: preq)).
    { intros j Hj. rewrite T1. apply in_or_app. right. exact Hj. }
    split; [apply (adv_trans _ _ _ _ T6); exact (adv_weaken _ _ _ _ E5 INC)|].
    split.
    { intros j Hj. rewrite T1 in Hj. apply in_app_or in Hj. destruct Hj as [Hj|Hj]; [|exact (E6 j Hj)].
      destruct (ad_or _ _ _ E5 j) as [->| ->]; [exact (T7 j Hj)|apply HF1]. }
    split; [cbn [increasing]; change (s_id q2) with (s_id q1); rewrite T5; split; [lia|];
            apply (increasing_weaken _ _ _ _ E7); lia|].
    split; [rewrite T1; apply Forall_app; auto|]. exact E9.
Qed.

(* the recursion bound is never reached *)
Lemma populate_len : forall preq c q refs postq x c1 q1 refs1 preq1 postq1,
  populate e kd c q refs preq postq = (x, c1, q1, refs1, preq1, postq1) -> (length preq1 <= length preq)%nat
  /\ x <> Some EFUEL.
Proof.
  induction preq as [|i preq IH]; intros c q refs postq x c1 q1 refs1 preq1 postq1 H; cbn [populate] in H.
  - injection H as <- <- <- <- <- <-. split; [lia|discriminate].
  - destruct (pre_resolve e (kd i) c i) as [c2|]; [|injection H as <- <- <- <- <- <-; split; [lia|discriminate]].
    destruct (may_write e (kd i) (c_laddr (c2 i))); cbn [negb] in H;
      [|injection H as <- <- <- <- <- <-; split; [lia|discriminate]].
    destruct (append_next_ref q (c_laddr (c2 i)) i (is_inode (kd i))) as [q2|];
      [|injection H as <- <- <- <- <- <-; split; [lia|discriminate]].
    apply IH in H. destruct H. split; [cbn [length]; lia|assumption].
Qed.

Lemma setup_no_efuel : forall n refs al r b al1, setup_by_refs n e refs al = ((r, b), al1) -> r <> Some EFUEL.
Proof.
  assert (A : forall refs al r b al1, assign_iovs e refs al = ((r, b), al1) -> r <> Some EFUEL).
  { intros refs al r b al1 H. unfold assign_iovs in H. destruct (setup_iovs (length refs) al) as [ok al2].
    destruct ok; cbn [negb] in H; [destruct (encrypt_iovs e refs)|]; congruence. }
  induction n as [|n IH]; intros refs al r b al1 H; cbn [setup_by_refs] in H.
  - exact (A _ _ _ _ _ H).
  - destruct (assign_iovs e refs al) as [[r2 b2] al2] eqn:Q. cbn [fst snd] in H.
    pose proof (A _ _ _ _ _ Q). destruct r2 as [[]|]; try (apply IH in H; assumption); try congruence.
Qed.

Lemma no_efuel : forall f preq l postq x l2 postq2, (length preq <= f)%nat ->
  enqueue_dset f e kd l preq postq = (x, l2, postq2) -> x <> Some EFUEL.
Proof.
  induction f as [|f IH]; intros preq l postq x l2 postq2 Hl H.
  - destruct preq; [|cbn in Hl; lia]. cbn in H. congruence.
  - destruct preq as [|i preq]; [rewrite enqueue_nil in H; congruence|]. rewrite enqueue_S in H.
    destruct (make_sqe 4 (l_apex l) (a_al (l_o l))) as [[r ap] al] eqn:MK.
    destruct r as [q|]; [|congruence].
    destruct (make_sqe_ok _ _ _ _ _ _ MK) as (Q1 & Q2).
    destruct (populate e kd (l_c l) q [] (i :: preq) postq) as [[[[[r c1] q1] refs] preq1] postq1] eqn:P.
    destruct (populate_len _ _ _ _ _ _ _ _ _ _ _ P) as (L1 & L2).
    destruct r as [y|]; [congruence|].
    destruct (populate_ok (i :: preq) (l_c l) q postq [] c1 q1 refs preq1 postq1 (l_c l) (fun j => eq_refl)) as
      (t & T1 & _ & _ & _ & _ & _ & _ & T8 & _).
    { rewrite Q1. reflexivity. } { exact P. }
    specialize (T8 eq_refl ltac:(discriminate)).
    destruct (setup_by_refs 4 e refs al) as [[r bufs] al1] eqn:SB.
    pose proof (setup_no_efuel _ _ _ _ _ _ SB). destruct r as [y|]; [congruence|].
    destruct (pop true (a_st (l_o l))) as [ok st1]. cbv zeta in H. destruct ok; cbn [negb] in H; [|congruence].
    apply IH in H; [exact H|]. apply (f_equal (@length Z)) in T1. rewrite app_length in T1. cbn [length] in *.
    destruct t; [congruence|]. cbn [length] in T1. lia.
Qed.

(* collecting never fails with the error of a write *)
Lemma populate_no_eio : forall preq c q refs postq x c1 q1 refs1 preq1 postq1,
  populate e kd c q refs preq postq = (x, c1, q1, refs1, preq1, postq1) -> (length preq1 <= length preq)%nat
  /\ x <> Some EIO.
Proof.
  induction preq as [|i preq IH]; intros c q refs postq x c1 q1 refs1 preq1 postq1 H; cbn [populate] in H.
  - injection H as <- <- <- <- <- <-. split; [lia|discriminate].
  - destruct (pre_resolve e (kd i) c i) as [c2|]; [|injection H as <- <- <- <- <- <-; split; [lia|discriminate]].
    destruct (may_write e (kd i) (c_laddr (c2 i))); cbn [negb] in H;
      [|injection H as <- <- <- <- <- <-; split; [lia|discriminate]].
    destruct (append_next_ref q (c_laddr (c2 i)) i (is_inode (kd i))) as [q2|];
      [|injection H as <- <- <- <- <- <-; split; [lia|discriminate]].
    apply IH in H. destruct H. split; [cbn [length]; lia|assumption].
Qed.

Lemma setup_no_eio : forall n refs al r b al1, setup_by_refs n e refs al = ((r, b), al1) -> r <> Some EIO.
Proof.
  assert (A : forall refs al r b al1, assign_iovs e refs al = ((r, b), al1) -> r <> Some EIO).
  { intros refs al r b al1 H. unfold assign_iovs in H. destruct (setup_iovs (length refs) al) as [ok al2].
    destruct ok; cbn [negb] in H; [destruct (encrypt_iovs e refs)|]; congruence. }
  induction n as [|n IH]; intros refs al r b al1 H; cbn [setup_by_refs] in H.
  - exact (A _ _ _ _ _ H).
  - destruct (assign_iovs e refs al) as [[r2 b2] al2] eqn:Q. cbn [fst snd] in H.
    pose proof (A _ _ _ _ _ Q). destruct r2 as [[]|]; try (apply IH in H; assumption); try congruence.
Qed.

Lemma no_eio : forall f preq l postq x l2 postq2, (length preq <= f)%nat ->
  enqueue_dset f e kd l preq postq = (x, l2, postq2) -> x <> Some EIO.
Proof.
  induction f as [|f IH]; intros preq l postq x l2 postq2 Hl H.
  - destruct preq; [|cbn in Hl; lia]. cbn in H. congruence.
  - destruct preq as [|i preq]; [rewrite enqueue_nil in H; congruence|]. rewrite enqueue_S in H.
    destruct (make_sqe 4 (l_apex l) (a_al (l_o l))) as [[r ap] al] eqn:MK.
    destruct r as [q|]; [|congruence].
    destruct (make_sqe_ok _ _ _ _ _ _ MK) as (Q1 & Q2).
    destruct (populate e kd (l_c l) q [] (i :: preq) postq) as [[[[[r c1] q1] refs] preq1] postq1] eqn:P.
    destruct (populate_no_eio _ _ _ _ _ _ _ _ _ _ _ P) as (L1 & L2).
    destruct r as [y|]; [congruence|].
    destruct (populate_ok (i :: preq) (l_c l) q postq [] c1 q1 refs preq1 postq1 (l_c l) (fun j => eq_refl)) as
      (t & T1 & _ & _ & _ & _ & _ & _ & T8 & _).
    { rewrite Q1. reflexivity. } { exact P. }
    specialize (T8 eq_refl ltac:(discriminate)).
    destruct (setup_by_refs 4 e refs al) as [[r bufs] al1] eqn:SB.
    pose proof (setup_no_eio _ _ _ _ _ _ SB). destruct r as [y|]; [congruence|].
    destruct (pop true (a_st (l_o l))) as [ok st1]. cbv zeta in H. destruct ok; cbn [negb] in H; [|congruence].
    apply IH in H; [exact H|]. apply (f_equal (@length Z)) in T1. rewrite app_length in T1. cbn [length] in *.
    destruct t; [congruence|]. cbn [length] in T1. lia.
Qed.

(* on an error only addresses changed, and only of the slot's objects *)
Lemma populate_view : forall preq c q refs postq x c1 q1 refs1 preq1 postq1,
  populate e kd c q refs preq postq = (x, c1, q1, refs1, preq1, postq1) ->
  forall j, c_view (c1 j) = c_view (c j) /\ c_async (c1 j) = c_async (c j).
Proof.
  induction preq as [|i preq IH]; intros c q refs postq x c1 q1 refs1 preq1 postq1 H j; cbn [populate] in H.
  - injection H as <- <- <- <- <- <-. auto.
  - destruct (pre_resolve e (kd i) c i) as [c2|] eqn:P; [|injection H as <- <- <- <- <- <-; auto].
    pose proof (resolve_view _ _ _ P j) as [V1 V2].
    destruct (may_write e (kd i) (c_laddr (c2 i))); cbn [negb] in H;
      [|injection H as <- <- <- <- <- <-; auto].
    destruct (append_next_ref q (c_laddr (c2 i)) i (is_inode (kd i))) as [q2|];
      [|injection H as <- <- <- <- <- <-; auto].
    destruct (IH _ _ _ _ _ _ _ _ _ _ H j). split; congruence.
Qed.

Lemma enqueue_view : forall f preq l postq x l2 postq2,
  enqueue_dset f e kd l preq postq = (x, l2, postq2) ->
  (forall j, c_view (l_c l2 j) = c_view (l_c l j) /\ c_async (l_c l2 j) = c_async (l_c l j))
  /\ l_apex l <= l_apex l2 /\ a_wr (l_o l2) = a_wr (l_o l).
Proof.
  induction f as [|f IH]; intros preq l postq x l2 postq2 H.
  - destruct preq; cbn in H; injection H as <- <- <-; (split; [auto|split; [lia|reflexivity]]).
  - destruct preq as [|i preq]; [rewrite enqueue_nil in H; injection H as <- <- <-; split; [auto|split; [lia|reflexivity]]|].
    rewrite enqueue_S in H.
    destruct (make_sqe 4 (l_apex l) (a_al (l_o l))) as [[r ap] al] eqn:MK.
    pose proof (make_sqe_apex _ _ _ _ _ _ MK) as AP.
    destruct r as [q|]; [|injection H as <- <- <-; cbn; split; [auto|split; [lia|reflexivity]]].
    destruct (populate e kd (l_c l) q [] (i :: preq) postq) as [[[[[r c1] q1] refs] preq1] postq1] eqn:P.
    pose proof (populate_view _ _ _ _ _ _ _ _ _ _ _ P) as PV.
    destruct r as [y|]; [injection H as <- <- <-; cbn; split; [auto|split; [lia|reflexivity]]|].
    destruct (setup_by_refs 4 e refs al) as [[r bufs] al1].
    destruct r as [y|]; [injection H as <- <- <-; cbn; split; [auto|split; [lia|reflexivity]]|].
    destruct (pop true (a_st (l_o l))) as [ok st1]. cbv zeta in H. destruct ok; cbn [negb] in H;
      [|injection H as <- <- <-; cbn; split; [auto|split; [lia|reflexivity]]].
    apply IH in H. cbn [l_c l_apex l_o a_wr] in H. destruct H as (H1 & H2 & H3). split; [|split; [lia|exact H3]].
    intro j. destruct (H1 j), (PV j). split; congruence.
Qed.

(* sealing *)
Lemma seal_all_at : forall l c j, NoDup l ->
  seal_all e kd c l j = if existsb (Z.eqb j) l then sealed e (kd j) (c j) else c j.
Proof.
  unfold seal_all. induction l as [|i l IH]; intros c j N; [reflexivity|]. cbn [fold_left existsb].
  inversion N; subst. rewrite IH by assumption.
  assert (S : forall j', seal_meta e kd c i j' = if j' =? i then sealed e (kd i) (c i) else c j').
  { intro j'. unfold seal_meta, sealed. destruct (kd i); unfold fset; destruct (Z.eqb_spec j' i) as [->|]; reflexivity. }
  rewrite !S. destruct (Z.eqb_spec j i) as [->|]; cbn [orb]; [|reflexivity].
  destruct (existsb (Z.eqb i) l) eqn:X; [|reflexivity].
  apply existsb_exists in X. destruct X as (y & Y1 & Y2). apply Z.eqb_eq in Y2. subst. contradiction.
Qed.
End Flush.
