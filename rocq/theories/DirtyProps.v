(* C32: the amount of dirty data is exact.
   For every history of creating, marking, cleaning, re-marking, evicting and forgetting
   objects, each queue's counter equals the total size of the objects that are dirty in
   it; no assertion of the queue code fails.  Both amounts that decide about flushing
   leave dirty objects out (findings). *)
From Coq Require Import Permutation FinFun.
From Verif Require Import Base DirtyModel.

(* ------------------------------------------------------------------ *)
(* Specification: objects and which of them are dirty, and on whose behalf.
   No queues, no counters. *)

Inductive owner := OwnUnis | OwnIis | OwnVnis | OwnInode (ii : Z).
Definition owner_of (q : qid) : owner :=
  match q with QUnis => OwnUnis | QIis => OwnIis | QVnis => OwnVnis | QOf i => OwnInode i end.

Record obj := mkO { o_kind : kind; o_sz : Z; o_dirty : option owner; o_loose : bool }.

Definition world := Z -> option obj.

Definition global_owner (k : kind) : owner :=
  match k with
  | KInode => OwnIis
  | KData | KMeta => OwnVnis
  | KUnode | KSuper => OwnUnis
  end.

Definition wdirty (w : world) (i : Z) : option owner :=
  match w i with Some o => o_dirty o | None => None end.

Definition mark (w : world) (i : Z) (o : obj) (d : option owner) : world :=
  fset w i (Some (mkO (o_kind o) (o_sz o) d (o_loose o))).

Definition mark_if_clean (w : world) (i : Z) (o : obj) (d : owner) : world :=
  match o_dirty o with
  | None => mark w i o (Some d)
  | Some _ => w
  end.

Definition owned (w : world) (ii j : Z) : bool :=
  match wdirty w j with Some (OwnInode k) => k =? ii | _ => false end.

Definition clean (w : world) (i : Z) : world :=
  match w i with Some o => mark w i o None | None => w end.

Definition clean_all (w : world) (ii : Z) : world :=
  fun j => match w j with
           | Some o => if owned w ii j || (j =? ii)
                       then Some (mkO (o_kind o) (o_sz o) None (o_loose o)) else Some o
           | None => None
           end.

(* dom: every name ever created, in which the objects owned by an inode are searched *)
Definition wstep (dom : list Z) (w : world) (o : dop) : world :=
  match o with
  | Create i k sz => match w i with Some _ => w | None => fset w i (Some (mkO k sz None false)) end
  | DirtyV i ii =>
      match w i, w ii with
      | Some x, Some y =>
          if is_vnode (o_kind x) && negb (is_inode (o_kind x)) && is_inode (o_kind y)
          then mark_if_clean w i x (OwnInode ii) else w
      | _, _ => w
      end
  | DirtyU i =>
      match w i with
      | Some x => if is_vnode (o_kind x) then w else mark_if_clean w i x OwnUnis
      | None => w
      end
  | DirtyI i =>
      match w i with
      | Some x => if is_inode (o_kind x) && negb (o_loose x) then mark_if_clean w i x OwnIis else w
      | None => w
      end
  | Clean i => clean w i
  | Redirty i =>
      match w i with
      | Some x => if is_vnode (o_kind x) then mark w i x (Some (global_owner (o_kind x))) else w
      | None => w
      end
  | CleanAll ii =>
      match w ii with
      | Some x => if is_inode (o_kind x) then clean_all w ii else w
      | None => w
      end
  | Loose ii =>
      match w ii with
      | Some x => if is_inode (o_kind x)
                  then fset w ii (Some (mkO (o_kind x) (o_sz x) (o_dirty x) true)) else w
      | None => w
      end
  | Evict i held =>
      match w i with
      | Some x =>
          match o_dirty x with
          | Some _ => w
          | None => if held then w
                    else if is_inode (o_kind x) && existsb (owned w i) dom then w
                    else fset w i None
          end
      | None => w
      end
  | Forget i held =>
      match w i with
      | Some x =>
          let w1 := if is_inode (o_kind x) then clean_all w i else clean w i in
          if held then w1 else fset w1 i None
      | None => w
      end
  end.

Definition dom_step (dom : list Z) (o : dop) : list Z :=
  match o with Create i _ _ => i :: dom | _ => dom end.

Fixpoint wrun (dom : list Z) (w : world) (l : list dop) {struct l} : world :=
  match l with
  | [] => w
  | o :: r => wrun (dom_step dom o) (wstep (dom_step dom o) w o) r
  end.

Definition empty_world : world := fun _ => None.

(* t is the total of f over the names satisfying P *)
Definition is_total (f : Z -> Z) (P : Z -> Prop) (t : Z) : Prop :=
  exists l, NoDup l /\ (forall i, In i l <-> P i) /\ t = zsum (map f l).

Definition wsize (w : world) (i : Z) : Z := match w i with Some o => o_sz o | None => 0 end.

(* sizes fit the 32-bit size field and there are at most 2^32 names, so that totals fit
   the 64-bit counter *)
Definition op_ok (o : dop) : Prop :=
  match o with
  | Create i _ sz => 0 <= i < 2 ^ 32 /\ 0 < sz < 2 ^ 32
  | _ => True
  end.

(* ------------------------------------------------------------------ *)
(* Proof *)

Lemma qid_eqb_eq : forall a b, qid_eqb a b = true <-> a = b.
Proof.
  intros a b; destruct a, b; cbn; split; intro H; try congruence; try reflexivity.
  - apply Z.eqb_eq in H. congruence.
  - apply Z.eqb_eq. congruence.
Qed.
Lemma qset_same : forall f q v, qset f q v q = v.
Proof. intros. unfold qset. rewrite (proj2 (qid_eqb_eq q q)); auto. Qed.
Lemma qset_other : forall f q v r, r <> q -> qset f q v r = f r.
Proof.
  intros. unfold qset. destruct (qid_eqb r q) eqn:E; auto. apply qid_eqb_eq in E. congruence.
Qed.
Lemma qid_dec : forall a b : qid, {a = b} + {a <> b}.
Proof. decide equality. apply Z.eq_dec. Qed.

Lemma in_lremove : forall i j l, In j (lremove i l) <-> In j l /\ j <> i.
Proof.
  intros. unfold lremove. rewrite filter_In. rewrite negb_true_iff, Z.eqb_neq. tauto.
Qed.
Lemma nodup_lremove : forall i l, NoDup l -> NoDup (lremove i l).
Proof. intros. apply NoDup_filter. assumption. Qed.
Lemma lremove_notin : forall i l, ~ In i l -> lremove i l = l.
Proof.
  intros i l. induction l as [|a l IH]; intro H; [reflexivity|]. unfold lremove in *. cbn [filter].
  destruct (Z.eqb_spec a i); cbn [negb].
  - exfalso. apply H. left. auto.
  - f_equal. apply IH. intro. apply H. right. auto.
Qed.
Lemma zsum_lremove : forall f i l, NoDup l -> In i l ->
  zsum (map f (lremove i l)) = zsum (map f l) - f i.
Proof.
  intros f i l N. induction N as [|a l Ha N IH]; intro H; [destruct H|].
  unfold lremove in *. cbn [filter map]. rewrite zsum_cons.
  destruct (Z.eqb_spec a i) as [E|E]; cbn [negb].
  - subst a. fold (lremove i l). rewrite lremove_notin by assumption. lia.
  - cbn [map]. rewrite zsum_cons. destruct H as [H|H]; [congruence|]. rewrite (IH H). lia.
Qed.
Lemma zsum_map_ext : forall (f g : Z -> Z) l, (forall i, In i l -> f i = g i) ->
  zsum (map f l) = zsum (map g l).
Proof.
  intros f g l H. f_equal. apply map_ext_in. exact H.
Qed.
Lemma zlen_bounded : forall n (l : list Z), 0 <= n -> NoDup l -> (forall i, In i l -> 0 <= i < n) ->
  zlen l <= n.
Proof.
  intros n l Hn N H.
  assert (L : (length (map Z.to_nat l) <= length (seq 0 (Z.to_nat n)))%nat).
  { apply NoDup_incl_length.
    - clear -N H. induction N as [|a l Ha N IH]; cbn [map]; constructor.
      + intro X. apply in_map_iff in X. destruct X as [b [Hb1 Hb2]].
        assert (0 <= a < n) by (apply H; left; reflexivity).
        assert (0 <= b < n) by (apply H; right; assumption).
        apply Ha. replace a with b by lia. assumption.
      + apply IH. intros. apply H. right. assumption.
    - intros x X. apply in_map_iff in X. destruct X as [b [Hb1 Hb2]]. specialize (H b Hb2).
      apply in_seq. lia. }
  rewrite map_length, seq_length in L. unfold zlen. lia.
Qed.
Lemma zsum_bounded : forall (f : Z -> Z) m (l : list Z), (forall i, In i l -> 0 <= f i <= m) ->
  0 <= zsum (map f l) <= m * zlen l.
Proof.
  intros f m l. induction l as [|a l IH]; intro H.
  - unfold zlen; cbn; lia.
  - cbn [map]. rewrite zsum_cons.
    assert (Ha := H a (or_introl eq_refl)).
    assert (Hl := IH (fun i X => H i (or_intror X))).
    replace (zlen (a :: l)) with (1 + zlen l) by (unfold zlen; cbn [length]; lia). lia.
Qed.

Lemma zsum_pos : forall (f : Z -> Z) (l : list Z) k, (forall i, In i l -> 0 < f i) -> In k l ->
  0 < zsum (map f l).
Proof.
  intros f l. induction l as [|a l IH]; intros k H K; [destruct K|]. cbn [map]. rewrite zsum_cons.
  pose proof (H a (or_introl eq_refl)) as Ha.
  destruct l as [|b l]; [cbn [map zsum fold_right]; lia|].
  pose proof (IH b (fun i X => H i (or_intror X)) (or_introl eq_refl)). lia.
Qed.

(* the invariant relating the code's state and the specification *)
Record rel (s : dst) (w : world) (dom : list Z) : Prop := {
  r_el : forall i, match w i with
                   | None => d_el s i = dead
                   | Some o => e_live (d_el s i) = true /\ e_kind (d_el s i) = o_kind o
                               /\ e_sz (d_el s i) = o_sz o /\ e_loose (d_el s i) = o_loose o
                               /\ o_dirty o = (if e_inq (d_el s i)
                                               then option_map owner_of (e_dq (d_el s i)) else None)
                               /\ (exists q, e_dq (d_el s i) = Some q
                                   /\ (is_vnode (o_kind o) && negb (is_inode (o_kind o)) = false ->
                                       q = dirtyqs_get (o_kind o)))
                   end;
  r_rng : forall i o, w i = Some o -> 0 <= i < 2 ^ 32 /\ 0 < o_sz o < 2 ^ 32 /\ In i dom;
  r_nd : forall q, NoDup (q_l (d_q s q));
  r_in : forall q i, In i (q_l (d_q s q)) <-> e_inq (d_el s i) = true /\ e_dq (d_el s i) = Some q;
  r_sum : forall q, q_accum (d_q s q) = zsum (map (fun i => e_sz (d_el s i)) (q_l (d_q s q)));
  r_own : forall i j, In j (q_l (d_q s (QOf i))) ->
            e_live (d_el s i) = true /\ is_inode (e_kind (d_el s i)) = true
}.

Lemma rel_inq_live : forall s w dom i, rel s w dom -> e_inq (d_el s i) = true ->
  exists o, w i = Some o /\ 0 <= i < 2 ^ 32 /\ 0 < o_sz o < 2 ^ 32 /\ e_sz (d_el s i) = o_sz o
    /\ exists q, e_dq (d_el s i) = Some q /\ o_dirty o = Some (owner_of q).
Proof.
  intros s w dom i R H. pose proof (r_el _ _ _ R i) as E. pose proof (r_rng _ _ _ R i) as G.
  destruct (w i) as [o|] eqn:W.
  - exists o. destruct E as (E1 & E2 & E3 & E4 & E5 & q & E6 & E7).
    destruct (G o eq_refl) as (G1 & G2 & G3).
    split; [reflexivity|]. split; [exact G1|]. split; [exact G2|]. split; [exact E3|].
    exists q. split; [exact E6|]. rewrite E5, H, E6. reflexivity.
  - rewrite E in H. discriminate.
Qed.

Lemma rel_bound : forall s w dom q, rel s w dom ->
  0 <= q_accum (d_q s q) <= (2 ^ 32 - 1) * 2 ^ 32.
Proof.
  intros s w dom q R. rewrite (r_sum _ _ _ R).
  assert (B : forall i, In i (q_l (d_q s q)) -> 0 <= i < 2 ^ 32 /\ 0 <= e_sz (d_el s i) <= 2 ^ 32 - 1).
  { intros i Hi. apply (r_in _ _ _ R) in Hi. destruct Hi as [Hi _].
    destruct (rel_inq_live _ _ _ _ R Hi) as (o & _ & H1 & H2 & H3 & _). lia. }
  pose proof (zlen_bounded (2 ^ 32) _ ltac:(lia) (r_nd _ _ _ R q) (fun i H => proj1 (B i H))) as L.
  pose proof (zsum_bounded (fun i => e_sz (d_el s i)) (2 ^ 32 - 1) _ (fun i H => proj2 (B i H))) as S.
  pose proof (zlen_nonneg _ (q_l (d_q s q))). nia.
Qed.

(* mark an object dirty in queue q *)
Lemma rel_append : forall s w dom i o q,
  rel s w dom -> w i = Some o -> e_inq (d_el s i) = false -> e_dq (d_el s i) = Some q ->
  (forall ii, q = QOf ii -> e_live (d_el s ii) = true /\ is_inode (e_kind (d_el s ii)) = true) ->
  rel (dirtyq_append s q i) (mark w i o (Some (owner_of q))) dom.
Proof.
  intros s w dom i o q R W Hn Hq Hown.
  assert (Hnot : forall r, ~ In i (q_l (d_q s r))).
  { intros r X. apply (r_in _ _ _ R) in X. destruct X. congruence. }
  pose proof (r_el _ _ _ R i) as E. rewrite W in E. destruct E as (E1 & E2 & E3 & E4 & E5 & E6).
  destruct (r_rng _ _ _ R i o W) as (G1 & G2 & G3).
  assert (KK : forall j, e_live (d_el (dirtyq_append s q i) j) = e_live (d_el s j)
                     /\ e_kind (d_el (dirtyq_append s q i) j) = e_kind (d_el s j)
                     /\ e_sz (d_el (dirtyq_append s q i) j) = e_sz (d_el s j)
                     /\ e_dq (d_el (dirtyq_append s q i) j) = e_dq (d_el s j)).
  { intro j. unfold dirtyq_append. cbn [d_el]. unfold fset. destruct (Z.eqb_spec j i) as [->|];
      [unfold with_inq; cbn|]; tauto. }
  assert (KI : forall j, e_inq (d_el (dirtyq_append s q i) j) = if j =? i then true else e_inq (d_el s j)).
  { intro j. unfold dirtyq_append. cbn [d_el]. unfold fset. destruct (Z.eqb_spec j i) as [->|];
      [unfold with_inq; cbn|]; reflexivity. }
  assert (KL : forall r, q_l (d_q (dirtyq_append s q i) r)
                     = if qid_eqb r q then q_l (d_q s q) ++ [i] else q_l (d_q s r)).
  { intro r. unfold dirtyq_append. cbn [d_q]. unfold qset. destruct (qid_eqb r q); reflexivity. }
  constructor.
  - intro j. unfold mark, dirtyq_append. cbn [d_el]. unfold fset. destruct (Z.eqb_spec j i) as [->|Hj].
    + unfold with_inq. cbn. rewrite Hq. cbn. repeat split; auto; try congruence.
      destruct E6 as (q' & Q1 & Q2). exists q. split; [reflexivity|]. intro X. rewrite <- (Q2 X). congruence.
    + exact (r_el _ _ _ R j).
  - intros j x. unfold mark, fset. destruct (Z.eqb_spec j i) as [->|Hj]; intro X.
    + assert (x = mkO (o_kind o) (o_sz o) (Some (owner_of q)) (o_loose o)) by congruence. subst x. cbn.
      tauto.
    + exact (r_rng _ _ _ R j x X).
  - intro r. rewrite KL. destruct (qid_eqb r q) eqn:Er; [|exact (r_nd _ _ _ R r)].
    apply NoDup_Add with (a := i) (l := q_l (d_q s q)).
    + replace (q_l (d_q s q)) with (q_l (d_q s q) ++ []) at 1 by apply app_nil_r. apply Add_app.
    + split; [exact (r_nd _ _ _ R q)|apply Hnot].
  - intros r j. rewrite KL, KI. destruct (KK j) as (_ & _ & _ & ->).
    destruct (qid_eqb r q) eqn:Er.
    + apply qid_eqb_eq in Er. subst r. rewrite in_app_iff. cbn [In]. rewrite (r_in _ _ _ R).
      destruct (Z.eqb_spec j i) as [->|]; [split; [intro; split; [reflexivity|exact Hq]|intro; right; left; reflexivity]|].
      split; [intros [X|[X|[]]]; [exact X|congruence]|intro X; left; exact X].
    + rewrite (r_in _ _ _ R). destruct (Z.eqb_spec j i) as [->|]; [|tauto].
      split; [intros [X _]; congruence|]. intros [_ X]. exfalso.
      assert (r = q) by congruence. apply qid_eqb_eq in H. congruence.
  - intro r. rewrite KL.
    rewrite (zsum_map_ext _ (fun j => e_sz (d_el s j))) by (intros; apply KK).
    unfold dirtyq_append. cbn [d_q]. unfold qset. destruct (qid_eqb r q) eqn:Er; [|apply (r_sum _ _ _ R)].
    cbn [q_accum]. pose proof (rel_bound _ _ _ q R). rewrite (r_sum _ _ _ R) in *.
    rewrite map_app, zsum_app. cbn [map]. rewrite zsum_cons. cbn [zsum fold_right]. unfold u64.
    rewrite Z.mod_small by lia. lia.
  - intros k j. rewrite KL. destruct (KK k) as (-> & -> & _).
    destruct (qid_eqb (QOf k) q) eqn:Er; [|apply (r_own _ _ _ R)].
    apply qid_eqb_eq in Er. intros _. apply Hown. congruence.
Qed.

Lemma rel_same_world : forall s w w' dom, rel s w dom -> (forall i, w' i = w i) -> rel s w' dom.
Proof.
  intros s w w' dom R H. constructor.
  - intro i. rewrite H. exact (r_el _ _ _ R i).
  - intros i o. rewrite H. exact (r_rng _ _ _ R i o).
  - exact (r_nd _ _ _ R). - exact (r_in _ _ _ R). - exact (r_sum _ _ _ R). - exact (r_own _ _ _ R).
Qed.

(* clean an object *)
Lemma rel_undirtify : forall s w dom i, rel s w dom ->
  exists s', lni_undirtify s i = Some s' /\ rel s' (clean w i) dom
    /\ e_inq (d_el s' i) = false
    /\ (forall j, j <> i -> d_el s' j = d_el s j)
    /\ (forall j, e_kind (d_el s' j) = e_kind (d_el s j) /\ e_live (d_el s' j) = e_live (d_el s j)
                  /\ e_dq (d_el s' j) = e_dq (d_el s j))
    /\ (forall q, q_l (d_q s' q) = lremove i (q_l (d_q s q))).
Proof.
  intros s w dom i R. unfold lni_undirtify, isdirty.
  assert (Hno : e_inq (d_el s i) = false -> forall q, q_l (d_q s q) = lremove i (q_l (d_q s q))).
  { intros X q. symmetry. apply lremove_notin. intro Y. apply (r_in _ _ _ R) in Y. destruct Y. congruence. }
  destruct (e_inq (d_el s i)) eqn:Hi.
  - destruct (rel_inq_live _ _ _ _ R Hi) as (o & W & G1 & G2 & G3 & q & Q1 & Q2).
    unfold dqe_dequeue. rewrite Hi, Q1. unfold dirtyq_remove. rewrite Hi. cbn [negb].
    assert (Hin : In i (q_l (d_q s q))) by (apply (r_in _ _ _ R); auto).
    assert (Hge : e_sz (d_el s i) <= q_accum (d_q s q)).
    { rewrite (r_sum _ _ _ R).
      pose proof (zsum_lremove (fun j => e_sz (d_el s j)) i _ (r_nd _ _ _ R q) Hin) as Z1.
      cbv beta in Z1.
      assert (0 <= zsum (map (fun j => e_sz (d_el s j)) (lremove i (q_l (d_q s q))))).
      { pose proof (zsum_bounded (fun j => e_sz (d_el s j)) (2 ^ 32) (lremove i (q_l (d_q s q)))) as Z2.
        apply Z2. intros j Hj. apply in_lremove in Hj. destruct Hj as [Hj _].
        apply (r_in _ _ _ R) in Hj. destruct Hj as [Hj _].
        destruct (rel_inq_live _ _ _ _ R Hj) as (o' & _ & _ & P2 & P3 & _). lia. }
      lia. }
    destruct (Z.ltb_spec (q_accum (d_q s q)) (e_sz (d_el s i))); [lia|].
    pose proof (r_el _ _ _ R i) as E. rewrite W in E. destruct E as (E1 & E2 & E3 & E4 & E5 & E6).
    set (s' := mkD _ _).
    assert (KK : forall j, e_live (d_el s' j) = e_live (d_el s j)
                     /\ e_kind (d_el s' j) = e_kind (d_el s j)
                     /\ e_sz (d_el s' j) = e_sz (d_el s j)
                     /\ e_dq (d_el s' j) = e_dq (d_el s j)).
    { intro j. subst s'. cbn [d_el]. unfold fset. destruct (Z.eqb_spec j i) as [->|];
        [unfold with_inq; cbn|]; tauto. }
    assert (KI : forall j, e_inq (d_el s' j) = if j =? i then false else e_inq (d_el s j)).
    { intro j. subst s'. cbn [d_el]. unfold fset. destruct (Z.eqb_spec j i) as [->|];
        [unfold with_inq; cbn|]; reflexivity. }
    assert (KL : forall r, q_l (d_q s' r) = lremove i (q_l (d_q s r))).
    { intro r. subst s'. cbn [d_q]. unfold qset. destruct (qid_eqb r q) eqn:Er.
      - apply qid_eqb_eq in Er. subst r. reflexivity.
      - symmetry. apply lremove_notin. intro Y. apply (r_in _ _ _ R) in Y. destruct Y as [_ Y].
        assert (X : r = q) by congruence. apply qid_eqb_eq in X. congruence. }
    exists s'. split; [reflexivity|]. split; [|split; [|split; [|split; [|exact KL]]]].
    + constructor.
      * intro j. unfold clean. rewrite W. unfold mark, fset. subst s'. cbn [d_el]. unfold fset.
        destruct (Z.eqb_spec j i) as [->|]; [|exact (r_el _ _ _ R j)].
        unfold with_inq. cbn. repeat split; auto.
      * intros j x. unfold clean. rewrite W. unfold mark, fset.
        destruct (Z.eqb_spec j i) as [->|]; [|exact (r_rng _ _ _ R j x)].
        intro X. assert (x = mkO (o_kind o) (o_sz o) None (o_loose o)) by congruence. subst x. cbn.
        exact (r_rng _ _ _ R i o W).
      * intro r. rewrite KL. apply nodup_lremove. exact (r_nd _ _ _ R r).
      * intros r j. rewrite KL, KI, in_lremove, (r_in _ _ _ R). destruct (KK j) as (_ & _ & _ & ->).
        destruct (Z.eqb_spec j i); [split; [tauto|intros [X _]; discriminate]|tauto].
      * intro r. rewrite KL. rewrite (zsum_map_ext _ (fun j => e_sz (d_el s j))) by (intros; apply KK).
        subst s'. cbn [d_q]. unfold qset. destruct (qid_eqb r q) eqn:Er.
        -- apply qid_eqb_eq in Er. subst r. cbn [q_accum].
           rewrite (zsum_lremove (fun j => e_sz (d_el s j)) i _ (r_nd _ _ _ R q) Hin).
           pose proof (rel_bound _ _ _ q R). rewrite (r_sum _ _ _ R) in *. unfold u64.
           rewrite Z.mod_small by lia. reflexivity.
        -- rewrite lremove_notin; [exact (r_sum _ _ _ R r)|]. intro Y. apply (r_in _ _ _ R) in Y.
           destruct Y as [_ Y]. assert (X : r = q) by congruence. apply qid_eqb_eq in X. congruence.
      * intros k j. rewrite KL, in_lremove. destruct (KK k) as (-> & -> & _). intros [X _].
        exact (r_own _ _ _ R k j X).
    + rewrite KI, Z.eqb_refl. reflexivity.
    + intros j Hj. subst s'. cbn [d_el]. apply fset_other. exact Hj.
    + intro j. destruct (KK j) as (? & ? & ? & ?). tauto.
  - exists s. split; [reflexivity|]. split; [|repeat split; auto].
    apply (rel_same_world _ w); [exact R|]. intro j. unfold clean.
    pose proof (r_el _ _ _ R i) as E. destruct (w i) as [o|] eqn:W; [|reflexivity].
    destruct E as (E1 & E2 & E3 & E4 & E5 & E6). rewrite Hi in E5.
    unfold mark, fset. destruct (Z.eqb_spec j i) as [->|]; [|reflexivity].
    rewrite W. f_equal. destruct o as [a b c d]. cbn in *. congruence.
Qed.

(* point a clean object at another queue *)
Lemma rel_setq : forall s w dom i o q, rel s w dom -> w i = Some o -> e_inq (d_el s i) = false ->
  (is_vnode (o_kind o) && negb (is_inode (o_kind o)) = false -> q = dirtyqs_get (o_kind o)) ->
  exists s', dqe_setq s i q = Some s' /\ rel s' w dom /\ e_inq (d_el s' i) = false
    /\ e_dq (d_el s' i) = Some q
    /\ (forall j, e_live (d_el s' j) = e_live (d_el s j) /\ e_kind (d_el s' j) = e_kind (d_el s j)).
Proof.
  intros s w dom i o q R W Hn Hq. unfold dqe_setq. rewrite Hn. eexists. split; [reflexivity|].
  assert (KK : forall j, e_live (d_el (set_el s i (with_dq (d_el s i) q)) j) = e_live (d_el s j)
             /\ e_kind (d_el (set_el s i (with_dq (d_el s i) q)) j) = e_kind (d_el s j)
             /\ e_sz (d_el (set_el s i (with_dq (d_el s i) q)) j) = e_sz (d_el s j)
             /\ e_inq (d_el (set_el s i (with_dq (d_el s i) q)) j) = e_inq (d_el s j)).
  { intro j. unfold set_el. cbn [d_el]. unfold fset. destruct (Z.eqb_spec j i) as [->|];
      [unfold with_dq; cbn|]; tauto. }
  split; [|split; [|split]].
  - constructor.
    + intro j. unfold set_el. cbn [d_el]. unfold fset. destruct (Z.eqb_spec j i) as [->|];
        [|exact (r_el _ _ _ R j)].
      rewrite W. pose proof (r_el _ _ _ R i) as E. rewrite W in E.
      destruct E as (E1 & E2 & E3 & E4 & E5 & E6). unfold with_dq. cbn. rewrite Hn in *.
      repeat split; auto. exists q. split; [reflexivity|exact Hq].
    + exact (r_rng _ _ _ R).
    + exact (r_nd _ _ _ R).
    + intros r j. destruct (KK j) as (_ & _ & _ & ->). unfold set_el. cbn [d_q d_el]. rewrite (r_in _ _ _ R).
      unfold fset. destruct (Z.eqb_spec j i) as [->|]; [|tauto]. rewrite Hn. split; intros [X _]; discriminate.
    + intro r. unfold set_el at 1 3. cbn [d_q]. rewrite (r_sum _ _ _ R). apply zsum_map_ext.
      intros j _. symmetry. apply KK.
    + intros k j. destruct (KK k) as (-> & -> & _). exact (r_own _ _ _ R k j).
  - destruct (KK i) as (_ & _ & _ & ->). exact Hn.
  - unfold set_el. cbn [d_el]. rewrite fset_same. reflexivity.
  - intro j. destruct (KK j) as (? & ? & _). tauto.
Qed.

Lemma rel_mark_twice : forall w i o d e, (forall j, mark (mark w i o d) i
    (mkO (o_kind o) (o_sz o) d (o_loose o)) e j = mark w i o e j).
Proof.
  intros. unfold mark, fset. cbn. destruct (j =? i); reflexivity.
Qed.

Lemma undirtify_vnis_S : forall f s ii, undirtify_vnis (S f) s ii =
  match q_l (d_q s (QOf ii)) with
  | [] => Some s
  | i :: _ => match lni_undirtify s i with None => None | Some s1 => undirtify_vnis f s1 ii end
  end.
Proof. reflexivity. Qed.

Lemma clean_other : forall w i j, wdirty w j = None -> clean w i j = w j \/ i = j.
Proof.
  intros. unfold clean. destruct (Z.eq_dec i j); [right; auto|]. left.
  destruct (w i); [|reflexivity]. unfold mark. rewrite fset_other by congruence. reflexivity.
Qed.

(* the world in which the objects of the list l were cleaned *)
Definition clean_list (w : world) (l : list Z) : world :=
  fun j => match w j with
           | Some o => if existsb (Z.eqb j) l then Some (mkO (o_kind o) (o_sz o) None (o_loose o)) else Some o
           | None => None
           end.

Lemma rel_undirtify_vnis : forall l s w dom ii, rel s w dom -> q_l (d_q s (QOf ii)) = l ->
  exists s', undirtify_vnis (length l) s ii = Some s' /\ rel s' (clean_list w l) dom
    /\ q_l (d_q s' (QOf ii)) = [].
Proof.
  induction l as [|i l IH]; intros s w dom ii R Hl.
  - exists s. split; [cbn [length undirtify_vnis]; rewrite Hl; reflexivity|]. split; [|exact Hl].
    apply (rel_same_world _ w); [exact R|]. intro j. unfold clean_list. cbn. destruct (w j); reflexivity.
  - cbn [length]. rewrite undirtify_vnis_S, Hl.
    destruct (rel_undirtify _ _ _ i R) as (s1 & -> & R1 & H1 & H2 & H3 & H4).
    assert (L1 : q_l (d_q s1 (QOf ii)) = l).
    { rewrite H4, Hl. unfold lremove. cbn [filter]. rewrite Z.eqb_refl. cbn [negb].
      fold (lremove i l). apply lremove_notin. pose proof (r_nd _ _ _ R (QOf ii)) as N. rewrite Hl in N.
      inversion N; assumption. }
    destruct (IH s1 _ dom ii R1 L1) as (s2 & -> & R2 & H5). exists s2. split; [reflexivity|].
    split; [|exact H5]. apply (rel_same_world _ _ _ _ R2). intro j.
    unfold clean_list, clean. cbn [existsb]. destruct (w i) as [o|] eqn:W.
    + unfold mark, fset. destruct (Z.eqb_spec j i) as [->|]; cbn [orb].
      * rewrite W. destruct (existsb (Z.eqb i) l); reflexivity.
      * reflexivity.
    + destruct (w j) as [x|] eqn:Wj; [|reflexivity]. destruct (Z.eqb_spec j i) as [->|]; [congruence|].
      reflexivity.
Qed.

Lemma rel_owned : forall s w dom ii j, rel s w dom ->
  owned w ii j = existsb (Z.eqb j) (q_l (d_q s (QOf ii))).
Proof.
  intros s w dom ii j R. unfold owned, wdirty. apply eq_true_iff_eq. rewrite existsb_exists.
  split.
  - intro H. exists j. split; [|apply Z.eqb_refl]. pose proof (r_el _ _ _ R j) as E.
    destruct (w j) as [o|] eqn:W; [|discriminate]. destruct E as (E1 & E2 & E3 & E4 & E5 & q & E6 & E7).
    rewrite E5 in H. destruct (e_inq (d_el s j)) eqn:Hi; [|discriminate]. rewrite E6 in H. cbn in H.
    apply (r_in _ _ _ R). split; [exact Hi|]. destruct q; cbn in H; try discriminate.
    apply Z.eqb_eq in H. congruence.
  - intros (k & Hk & Hjk). apply Z.eqb_eq in Hjk. subst k. apply (r_in _ _ _ R) in Hk.
    destruct Hk as [Hi Hq]. destruct (rel_inq_live _ _ _ _ R Hi) as (o & W & _ & _ & _ & q & Q1 & Q2).
    rewrite W, Q2. assert (q = QOf ii) by congruence. subst q. cbn. apply Z.eqb_refl.
Qed.

Lemma rel_undirtify_all : forall s w dom ii x, rel s w dom -> w ii = Some x ->
  is_inode (o_kind x) = true ->
  exists s', ii_undirtify_all s ii = Some s' /\ rel s' (clean_all w ii) dom
    /\ e_inq (d_el s' ii) = false /\ q_l (d_q s' (QOf ii)) = [].
Proof.
  intros s w dom ii x R W Hk. unfold ii_undirtify_all.
  destruct (rel_undirtify_vnis _ s w dom ii R eq_refl) as (s1 & -> & R1 & H1).
  destruct (rel_undirtify _ _ _ ii R1) as (s2 & -> & R2 & H2 & _ & _ & H4).
  exists s2. split; [reflexivity|]. split; [|split; [exact H2|rewrite H4, H1; reflexivity]].
  apply (rel_same_world _ _ _ _ R2). intro j. unfold clean_all. unfold clean.
  unfold clean_list at 1. rewrite W.
  assert (C : forall y, clean_list w (q_l (d_q s (QOf ii))) y =
     match w y with Some o => if owned w ii y then Some (mkO (o_kind o) (o_sz o) None (o_loose o)) else Some o
                  | None => None end).
  { intro y. unfold clean_list. rewrite (rel_owned _ _ _ ii y R). reflexivity. }
  destruct (existsb (Z.eqb ii) (q_l (d_q s (QOf ii)))); unfold mark, fset; cbn [o_kind o_sz o_loose];
    (destruct (Z.eqb_spec j ii) as [->|Hj];
     [rewrite W; rewrite orb_true_r; reflexivity|rewrite C; destruct (w j); [rewrite orb_false_r|]; reflexivity]).
Qed.

Lemma rel_destroy : forall s w dom i o, rel s w dom -> w i = Some o -> e_inq (d_el s i) = false ->
  (is_inode (o_kind o) = true -> q_l (d_q s (QOf i)) = []) ->
  exists s', destroy s i = Some s' /\ rel s' (fset w i None) dom.
Proof.
  intros s w dom i o R W Hn Hq. unfold destroy.
  pose proof (r_el _ _ _ R i) as E. rewrite W in E. destruct E as (E1 & E2 & E3 & E4 & E5 & E6).
  destruct (r_rng _ _ _ R i o W) as (G1 & G2 & G3).
  rewrite Hn, E3, E2. destruct (Z.leb_spec (o_sz o) 0); [lia|]. cbn [orb].
  assert (C : is_inode (o_kind o) && (negb (match q_l (d_q s (QOf i)) with [] => true | _ => false end)
              || negb (q_accum (d_q s (QOf i)) =? 0)) = false).
  { destruct (is_inode (o_kind o)) eqn:K; [|reflexivity]. cbn [andb]. rewrite (r_sum _ _ _ R), (Hq eq_refl).
    reflexivity. }
  rewrite C. eexists. split; [reflexivity|].
  assert (Hnot : forall r, ~ In i (q_l (d_q s r))).
  { intros r X. apply (r_in _ _ _ R) in X. destruct X. congruence. }
  constructor.
  - intro j. unfold set_el. cbn [d_el]. unfold fset. destruct (Z.eqb_spec j i); [reflexivity|exact (r_el _ _ _ R j)].
  - intros j x. unfold fset. destruct (Z.eqb_spec j i); [discriminate|exact (r_rng _ _ _ R j x)].
  - exact (r_nd _ _ _ R).
  - intros r j. unfold set_el. cbn [d_q d_el]. unfold fset. destruct (Z.eqb_spec j i) as [->|].
    + split; [intro X; exfalso; exact (Hnot r X)|cbn; intros [X _]; discriminate].
    + apply (r_in _ _ _ R).
  - intro r. unfold set_el at 1 3. cbn [d_q]. rewrite (r_sum _ _ _ R). apply zsum_map_ext.
    intros j Hj. unfold set_el. cbn [d_el]. rewrite fset_other; [reflexivity|]. intro X. subst j.
    exact (Hnot r Hj).
  - intros k j. unfold set_el. cbn [d_q d_el]. intro X. pose proof (r_own _ _ _ R k j X) as Y.
    unfold fset. destruct (Z.eqb_spec k i) as [->|]; [|exact Y]. exfalso.
    destruct Y as [_ Y]. rewrite E2 in Y. rewrite (Hq Y) in X. destruct X.
Qed.

Lemma rel_dom : forall s w dom dom', rel s w dom -> (forall i, In i dom -> In i dom') -> rel s w dom'.
Proof.
  intros s w dom dom' R H. constructor; try (apply R).
  intros i o W. destruct (r_rng _ _ _ R i o W) as (? & ? & ?). auto.
Qed.

Lemma rel_vni_dirtify : forall s w dom i o oii, rel s w dom -> w i = Some o ->
  (match oii with
   | None => is_vnode (o_kind o) && negb (is_inode (o_kind o)) = false
   | Some ii => is_vnode (o_kind o) && negb (is_inode (o_kind o)) = true /\
                e_live (d_el s ii) = true /\ is_inode (e_kind (d_el s ii)) = true
   end) ->
  exists s', vni_dirtify s i oii = Some s'
    /\ rel s' (mark_if_clean w i o (match oii with Some ii => OwnInode ii | None => global_owner (o_kind o) end)) dom.
Proof.
  intros s w dom i o oii R W H. unfold vni_dirtify, isdirty, mark_if_clean.
  pose proof (r_el _ _ _ R i) as E. rewrite W in E. destruct E as (E1 & E2 & E3 & E4 & E5 & q & E6 & E7).
  rewrite E5. destruct (e_inq (d_el s i)) eqn:Hi; cbn [negb].
  - rewrite E6. cbn. exists s. split; [reflexivity|exact R].
  - destruct oii as [ii|].
    + destruct H as (H1 & H2 & H3).
      assert (HQ : is_vnode (o_kind o) && negb (is_inode (o_kind o)) = false -> QOf ii = dirtyqs_get (o_kind o)) by congruence.
      destruct (rel_setq s w dom i o (QOf ii) R W Hi HQ) as (s1 & -> & R1 & I1 & Q1 & K1).
      unfold lni_dirtify, isdirty. rewrite I1. cbn [negb]. unfold dqe_enqueue. rewrite I1, Q1.
      eexists. split; [reflexivity|].
      apply (rel_append s1 w dom i o (QOf ii) R1 W I1 Q1). intros k X.
      assert (k = ii) by congruence. subst k. destruct (K1 ii) as (-> & ->). auto.
    + unfold lni_dirtify, isdirty. rewrite Hi. cbn [negb]. unfold dqe_enqueue. rewrite Hi, E6.
      eexists. split; [reflexivity|]. specialize (E7 H).
      replace (global_owner (o_kind o)) with (owner_of q) by (rewrite E7; destruct (o_kind o); reflexivity).
      apply rel_append; auto. intros ii X. exfalso. rewrite X in E7. destruct (o_kind o); discriminate E7.
Qed.

Lemma rel_live : forall s w dom i, rel s w dom ->
  e_live (d_el s i) = match w i with Some _ => true | None => false end.
Proof.
  intros s w dom i R. pose proof (r_el _ _ _ R i) as E. destruct (w i); [tauto|]. rewrite E. reflexivity.
Qed.
Lemma rel_kind : forall s w dom i o, rel s w dom -> w i = Some o -> e_kind (d_el s i) = o_kind o.
Proof. intros s w dom i o R W. pose proof (r_el _ _ _ R i) as E. rewrite W in E. tauto. Qed.

Lemma existsb_sub : forall f (l dom : list Z), (forall i, In i l -> In i dom) ->
  (forall i, f i = true -> In i l) -> existsb f dom = match filter f l with [] => false | _ => true end.
Proof.
  intros f l dom H1 H2. apply eq_true_iff_eq. rewrite existsb_exists. split.
  - intros (x & _ & Hx). pose proof (proj2 (filter_In f x l) (conj (H2 x Hx) Hx)) as X.
    destruct (filter f l); [destruct X|reflexivity].
  - destruct (filter f l) as [|x r] eqn:F; [discriminate|]. intros _.
    assert (X : In x (filter f l)) by (rewrite F; left; reflexivity). apply filter_In in X.
    exists x. split; [apply H1|]; tauto.
Qed.

Lemma rel_step : forall s w dom o, rel s w dom -> op_ok o ->
  exists s', dstep s o = Some s' /\ rel s' (wstep (dom_step dom o) w o) (dom_step dom o).
Proof.
  intros s w dom o R OK. destruct o as [i k sz|i ii|i|i|i|i|ii|ii|i held|i held]; cbn [dstep wstep dom_step].
  - (* Create *)
    unfold create. rewrite (rel_live _ _ _ i R). destruct (w i) as [x|] eqn:W.
    { exists s. split; [reflexivity|]. apply (rel_dom _ _ _ _ R). intros. right. assumption. }
    destruct OK as [OK1 OK2]. destruct (Z.leb_spec sz 0); [lia|]. eexists. split; [reflexivity|].
    pose proof (r_el _ _ _ R i) as E. rewrite W in E.
    assert (Hnot : forall r, ~ In i (q_l (d_q s r))).
    { intros r X. apply (r_in _ _ _ R) in X. destruct X as [X _]. rewrite E in X. discriminate. }
    assert (HQ : forall r, (if is_inode k then qset (d_q s) (QOf i) (mkQ [] 0) else d_q s) r = d_q s r).
    { intro r. destruct (is_inode k); [|reflexivity]. unfold qset. destruct (qid_eqb r (QOf i)) eqn:Er; [|reflexivity].
      apply qid_eqb_eq in Er. subst r.
      assert (L : q_l (d_q s (QOf i)) = []).
      { destruct (q_l (d_q s (QOf i))) as [|j l] eqn:L; [reflexivity|]. exfalso.
        assert (X : In j (q_l (d_q s (QOf i)))) by (rewrite L; left; reflexivity).
        apply (r_own _ _ _ R) in X. rewrite E in X. destruct X. discriminate. }
      pose proof (r_sum _ _ _ R (QOf i)) as S. rewrite L in S. cbn in S.
      destruct (d_q s (QOf i)) as [a b]. cbn in *. congruence. }
    constructor.
    + intro j. cbn [d_el]. unfold fset. destruct (Z.eqb_spec j i); [|exact (r_el _ _ _ R j)].
      cbn. repeat split; auto. { unfold u32. apply Z.mod_small. lia. } exists (dirtyqs_get k). split; reflexivity.
    + intros j x. unfold fset. destruct (Z.eqb_spec j i) as [->|].
      * intro X. assert (x = mkO k sz None false) by congruence. subst x. cbn.
        split; [exact OK1|]. split; [exact OK2|]. left. reflexivity.
      * intro X. destruct (r_rng _ _ _ R j x X) as (? & ? & ?). cbn. tauto.
    + intro r. cbn [d_q]. rewrite HQ. exact (r_nd _ _ _ R r).
    + intros r j. cbn [d_q d_el]. rewrite HQ. unfold fset. destruct (Z.eqb_spec j i) as [->|].
      * split; [intro X; exfalso; exact (Hnot r X)|cbn; intros [X _]; discriminate].
      * apply (r_in _ _ _ R).
    + intro r. cbn [d_q d_el]. rewrite HQ. rewrite (r_sum _ _ _ R). apply zsum_map_ext. intros j Hj.
      rewrite fset_other; [reflexivity|]. intro X. subst j. exact (Hnot r Hj).
    + intros a j. cbn [d_q d_el]. rewrite HQ. intro X. pose proof (r_own _ _ _ R a j X) as Y.
      unfold fset. destruct (Z.eqb_spec a i) as [->|]; [|exact Y]. rewrite E in Y. destruct Y. discriminate.
  - (* DirtyV *)
    rewrite !(rel_live _ _ _ _ R). destruct (w i) as [x|] eqn:W; [|exists s; split; [reflexivity|exact R]].
    rewrite (rel_kind _ _ _ _ _ R W). cbn [andb]. destruct (w ii) as [y|] eqn:Wy.
    2:{ rewrite andb_false_r. exists s; split; [reflexivity|exact R]. }
    rewrite (rel_kind _ _ _ _ _ R Wy), andb_true_r.
    destruct (is_vnode (o_kind x) && negb (is_inode (o_kind x)) && is_inode (o_kind y)) eqn:K;
      [|exists s; split; [reflexivity|exact R]].
    apply andb_prop in K. destruct K as [K1 K2].
    apply (rel_vni_dirtify s w dom i x (Some ii) R W). split; [exact K1|].
    rewrite (rel_live _ _ _ _ R), (rel_kind _ _ _ _ _ R Wy), Wy. auto.
  - (* DirtyU *)
    rewrite (rel_live _ _ _ _ R). destruct (w i) as [x|] eqn:W; [|exists s; split; [reflexivity|exact R]].
    rewrite (rel_kind _ _ _ _ _ R W). destruct (is_vnode (o_kind x)) eqn:K; cbn [negb andb];
      [exists s; split; [reflexivity|exact R]|].
    destruct (rel_vni_dirtify s w dom i x None R W) as (s' & H1 & H2).
    { rewrite K. reflexivity. }
    exists s'. split; [|replace OwnUnis with (global_owner (o_kind x)); [exact H2|destruct (o_kind x); try discriminate K; reflexivity]].
    rewrite <- H1. unfold vni_dirtify, lni_dirtify. destruct (isdirty s i); reflexivity.
  - (* DirtyI *)
    rewrite (rel_live _ _ _ _ R). destruct (w i) as [x|] eqn:W; [|exists s; split; [reflexivity|exact R]].
    rewrite (rel_kind _ _ _ _ _ R W). cbn [andb]. destruct (is_inode (o_kind x)) eqn:K;
      [|exists s; split; [reflexivity|exact R]]. cbn [andb]. unfold ii_dirtify.
    pose proof (r_el _ _ _ R i) as E. rewrite W in E. destruct E as (E1 & E2 & E3 & E4 & E5 & E6).
    rewrite E4. destruct (o_loose x); cbn [negb]; [exists s; split; [reflexivity|exact R]|].
    destruct (rel_vni_dirtify s w dom i x None R W) as (s' & H1 & H2).
    { rewrite K. apply andb_false_r. }
    exists s'. split; [exact H1|]. replace OwnIis with (global_owner (o_kind x)); [exact H2|].
    destruct (o_kind x); try discriminate K; reflexivity.
  - (* Clean *)
    destruct (rel_undirtify s w dom i R) as (s' & H1 & H2 & _). exists s'. auto.
  - (* Redirty *)
    rewrite (rel_live _ _ _ _ R). destruct (w i) as [x|] eqn:W; [|exists s; split; [reflexivity|exact R]].
    rewrite (rel_kind _ _ _ _ _ R W). cbn [andb]. destruct (is_vnode (o_kind x)) eqn:K;
      [|exists s; split; [reflexivity|exact R]].
    unfold reditify. destruct (rel_undirtify s w dom i R) as (s1 & -> & R1 & I1 & _ & K1 & _).
    set (x1 := mkO (o_kind x) (o_sz x) None (o_loose x)).
    assert (W1 : clean w i i = Some x1) by (unfold clean; rewrite W; unfold mark; apply fset_same).
    rewrite (rel_kind _ _ _ _ _ R1 W1). cbn [o_kind x1].
    assert (HQ : is_vnode (o_kind x1) && negb (is_inode (o_kind x1)) = false -> dirtyqs_get (o_kind x) = dirtyqs_get (o_kind x1)) by reflexivity.
    destruct (rel_setq s1 _ dom i x1 (dirtyqs_get (o_kind x)) R1 W1 I1 HQ) as (s2 & -> & R2 & I2 & Q2 & K2).
    unfold vni_dirtify, isdirty. rewrite I2. cbn [negb]. unfold lni_dirtify, isdirty. rewrite I2. cbn [negb].
    unfold dqe_enqueue. rewrite I2, Q2. eexists. split; [reflexivity|].
    assert (P := rel_append s2 _ dom i x1 (dirtyqs_get (o_kind x)) R2 W1 I2 Q2).
    apply (rel_same_world _ (mark (clean w i) i x1 (Some (owner_of (dirtyqs_get (o_kind x)))))).
    + apply P. intros k X. destruct (o_kind x); discriminate X.
    + intro j. unfold mark, clean. rewrite W. unfold mark, fset. subst x1. cbn. destruct (j =? i); [|reflexivity].
      destruct (o_kind x); reflexivity.
  - (* CleanAll *)
    rewrite (rel_live _ _ _ _ R). destruct (w ii) as [x|] eqn:W; [|exists s; split; [reflexivity|exact R]].
    rewrite (rel_kind _ _ _ _ _ R W). cbn [andb]. destruct (is_inode (o_kind x)) eqn:K;
      [|exists s; split; [reflexivity|exact R]].
    destruct (rel_undirtify_all s w dom ii x R W K) as (s' & H1 & H2 & _). exists s'. auto.
  - (* Loose *)
    rewrite (rel_live _ _ _ _ R). destruct (w ii) as [x|] eqn:W; [|exists s; split; [reflexivity|exact R]].
    rewrite (rel_kind _ _ _ _ _ R W). cbn [andb]. destruct (is_inode (o_kind x)) eqn:K;
      [|exists s; split; [reflexivity|exact R]].
    eexists. split; [reflexivity|].
    pose proof (r_el _ _ _ R ii) as E. rewrite W in E. destruct E as (E1 & E2 & E3 & E4 & E5 & E6).
    constructor.
    + intro j. unfold set_el. cbn [d_el]. unfold fset. destruct (Z.eqb_spec j ii) as [->|]; [|exact (r_el _ _ _ R j)].
      unfold with_loose. cbn. tauto.
    + intros j y. unfold fset. destruct (Z.eqb_spec j ii) as [->|]; [|exact (r_rng _ _ _ R j y)].
      intro X. assert (y = mkO (o_kind x) (o_sz x) (o_dirty x) true) by congruence. subst y. cbn.
      exact (r_rng _ _ _ R ii x W).
    + exact (r_nd _ _ _ R).
    + intros r j. unfold set_el. cbn [d_q d_el]. rewrite (r_in _ _ _ R). unfold fset.
      destruct (Z.eqb_spec j ii) as [->|]; [unfold with_loose; cbn|]; tauto.
    + intro r. unfold set_el at 1 3. cbn [d_q]. rewrite (r_sum _ _ _ R). apply zsum_map_ext. intros j _.
      unfold set_el. cbn [d_el]. unfold fset. destruct (Z.eqb_spec j ii) as [->|]; reflexivity.
    + intros a j X. pose proof (r_own _ _ _ R a j X) as Y. unfold set_el. cbn [d_el]. unfold fset.
      destruct (Z.eqb_spec a ii) as [->|]; exact Y.
  - (* Evict *)
    unfold evict. rewrite (rel_live _ _ _ _ R). destruct (w i) as [x|] eqn:W; [|exists s; split; [reflexivity|exact R]].
    cbn [andb]. unfold evictable, isdirty. rewrite (rel_kind _ _ _ _ _ R W).
    pose proof (r_el _ _ _ R i) as E. rewrite W in E. destruct E as (E1 & E2 & E3 & E4 & E5 & q & E6 & E7).
    rewrite E5, E6. destruct (e_inq (d_el s i)) eqn:Hi; cbn [negb andb option_map].
    { rewrite andb_false_r. exists s. split; [reflexivity|exact R]. }
    destruct held; cbn [negb andb]; [exists s; split; [reflexivity|exact R]|].
    destruct (is_inode (o_kind x)) eqn:K; cbn [andb].
    + assert (X : existsb (owned w i) dom = match q_l (d_q s (QOf i)) with [] => false | _ => true end).
      { apply eq_true_iff_eq. rewrite existsb_exists. split.
        - intros (j & _ & Hj). rewrite (rel_owned _ _ _ i j R) in Hj. apply existsb_exists in Hj.
          destruct Hj as (k & Hk & _). destruct (q_l (d_q s (QOf i))); [destruct Hk|reflexivity].
        - destruct (q_l (d_q s (QOf i))) as [|j l] eqn:L; [discriminate|]. intros _. exists j. split.
          + assert (Y : In j (q_l (d_q s (QOf i)))) by (rewrite L; left; reflexivity).
            apply (r_in _ _ _ R) in Y. destruct Y as [Y _].
            destruct (rel_inq_live _ _ _ _ R Y) as (o & Wj & _). apply (r_rng _ _ _ R j o Wj).
          + rewrite (rel_owned _ _ _ i j R), L. cbn. rewrite Z.eqb_refl. reflexivity. }
      rewrite X. destruct (q_l (d_q s (QOf i))) eqn:L; [|exists s; split; [reflexivity|exact R]].
      apply (rel_destroy s w dom i x R W Hi). intros _. exact L.
    + apply (rel_destroy s w dom i x R W Hi). congruence.
  - (* Forget *)
    rewrite (rel_live _ _ _ _ R). destruct (w i) as [x|] eqn:W; [|exists s; split; [reflexivity|exact R]].
    rewrite (rel_kind _ _ _ _ _ R W). destruct (is_inode (o_kind x)) eqn:K.
    + destruct (rel_undirtify_all s w dom i x R W K) as (s1 & -> & R1 & I1 & L1).
      assert (W1 : clean_all w i i = Some (mkO (o_kind x) (o_sz x) None (o_loose x))).
      { unfold clean_all. rewrite W, Z.eqb_refl, orb_true_r. reflexivity. }
      unfold forget. destruct (rel_undirtify s1 _ dom i R1) as (s2 & -> & R2 & I2 & _ & _ & L2).
      assert (R3 : rel s2 (clean_all w i) dom).
      { apply (rel_same_world _ _ _ _ R2). intro j. unfold clean. rewrite W1. unfold mark, fset. cbn.
        destruct (Z.eqb_spec j i) as [->|]; [exact W1|reflexivity]. }
      destruct held; [exists s2; split; [reflexivity|exact R3]|].
      apply (rel_destroy s2 _ dom i _ R3 W1 I2). intros _. rewrite L2, L1. reflexivity.
    + unfold forget. destruct (rel_undirtify s w dom i R) as (s2 & -> & R2 & I2 & _ & _ & L2).
      destruct held; [exists s2; split; [reflexivity|exact R2]|].
      assert (W1 : clean w i i = Some (mkO (o_kind x) (o_sz x) None (o_loose x))).
      { unfold clean. rewrite W. unfold mark. apply fset_same. }
      apply (rel_destroy s2 _ dom i _ R2 W1 I2). cbn. congruence.
Qed.

Lemma rel_run : forall l s w dom, rel s w dom -> Forall op_ok l ->
  exists s' dom', drun s l = Some s' /\ rel s' (wrun dom w l) dom'.
Proof.
  induction l as [|o l IH]; intros s w dom R F.
  - exists s, dom. split; [reflexivity|exact R].
  - inversion F; subst. destruct (rel_step s w dom o R H1) as (s1 & H3 & R1).
    destruct (IH s1 _ _ R1 H2) as (s2 & dom2 & H4 & R2). exists s2, dom2. cbn [drun wrun]. rewrite H3. auto.
Qed.

Lemma rel_init : rel d_init empty_world [].
Proof.
  constructor; intros; try (cbn in *; reflexivity).
  - discriminate. - constructor. - cbn. split; [intros []|intros [X _]; discriminate]. - destruct H.
Qed.

(* ------------------------------------------------------------------ *)
(* For every history, no assertion fails, an object is marked dirty exactly when the
   specification says so, and every counter is the total size of its dirty objects. *)
Theorem C32_counters_exact : forall l, Forall op_ok l ->
  exists s, drun d_init l = Some s /\
    (forall i, isdirty s i = true <-> wdirty (wrun [] empty_world l) i <> None) /\
    (forall q, is_total (wsize (wrun [] empty_world l))
                 (fun i => wdirty (wrun [] empty_world l) i = Some (owner_of q)) (q_accum (d_q s q))).
Proof.
  intros l F. destruct (rel_run l _ _ _ rel_init F) as (s & dom & H & R). exists s. split; [exact H|].
  set (w := wrun [] empty_world l) in *.
  assert (D : forall i q, (e_inq (d_el s i) = true /\ e_dq (d_el s i) = Some q) <->
              wdirty w i = Some (owner_of q)).
  { intros i q. unfold wdirty. split.
    - intros [H1 H2]. destruct (rel_inq_live _ _ _ _ R H1) as (o & W & _ & _ & _ & q' & Q1 & Q2).
      rewrite W, Q2. congruence.
    - pose proof (r_el _ _ _ R i) as E. destruct (w i) as [o|]; [|discriminate].
      destruct E as (E1 & E2 & E3 & E4 & E5 & q' & E6 & E7). rewrite E5.
      destruct (e_inq (d_el s i)); [|discriminate]. rewrite E6. cbn. intro X. split; [reflexivity|].
      assert (Y : owner_of q' = owner_of q) by congruence.
      destruct q', q; cbn in Y; congruence. }
  split.
  - intro i. unfold isdirty. split.
    + intro H1. destruct (rel_inq_live _ _ _ _ R H1) as (o & W & _ & _ & _ & q' & Q1 & Q2).
      unfold wdirty. rewrite W, Q2. discriminate.
    + destruct (wdirty w i) as [ow|] eqn:X; [|congruence]. intros _.
      assert (exists q, ow = owner_of q) as [q ->].
      { destruct ow; [exists QUnis|exists QIis|exists QVnis|exists (QOf ii)]; reflexivity. }
      apply D in X. tauto.
  - intro q. exists (q_l (d_q s q)). split; [exact (r_nd _ _ _ R q)|]. split.
    + intro i. rewrite (r_in _ _ _ R). apply D.
    + rewrite (r_sum _ _ _ R). apply zsum_map_ext. intros i Hi. apply (r_in _ _ _ R) in Hi.
      destruct Hi as [Hi _]. destruct (rel_inq_live _ _ _ _ R Hi) as (o & W & _ & _ & Z1 & _).
      unfold wsize. rewrite W. exact Z1.
Qed.

(* Two data blocks of one inode, one marked twice, one cleaned and marked again; the inode
   evicted only once its queue is empty. *)
Definition ex_hist : list dop :=
  [Create 1 KInode 1024; Create 2 KData 65536; Create 3 KMeta 8192; Create 4 KUnode 32768;
   DirtyV 2 1; DirtyV 2 1; DirtyV 3 1; DirtyI 1; DirtyU 4; Clean 3; Clean 3; DirtyV 3 1;
   Evict 1 false; Clean 1; Evict 1 false].

Example C32_counters_exact_ex : exists s, drun d_init ex_hist = Some s
  /\ q_accum (d_q s (QOf 1)) = 65536 + 8192 /\ q_accum (d_q s QUnis) = 32768
  /\ q_accum (d_q s QIis) = 0 /\ isdirty s 3 = true /\ e_live (d_el s 1) = true.
Proof. eexists. split; [vm_compute; reflexivity|]. vm_compute. repeat split. Qed.

(* The flush decision is by exactly these totals: fsync (threshold zero) of a file asks
   for a flush when, and without memory pressure only when, some object is dirty on behalf
   of the inode - other than the inode itself. *)
Theorem C32_fsync_decision : forall l ii, Forall op_ok l ->
  exists s, drun d_init l = Some s /\
    (flush_dirty_of_asks s ii F_FSYNC false = true <->
     exists i, wdirty (wrun [] empty_world l) i = Some (OwnInode ii)).
Proof.
  intros l ii F. destruct (rel_run l _ _ _ rel_init F) as (s & dom & H & R). exists s. split; [exact H|].
  set (w := wrun [] empty_world l) in *.
  assert (P : 0 < q_accum (d_q s (QOf ii)) <-> exists i, wdirty w i = Some (OwnInode ii)).
  { rewrite (r_sum _ _ _ R). split.
    - intro X. destruct (q_l (d_q s (QOf ii))) as [|j r] eqn:L; [cbn in X; lia|]. exists j.
      pose proof (rel_owned _ _ _ ii j R) as O. rewrite L in O. cbn [existsb] in O.
      rewrite Z.eqb_refl in O. cbn [orb] in O. unfold owned in O.
      destruct (wdirty w j) as [[| | |k]|]; try discriminate. apply Z.eqb_eq in O. congruence.
    - intros [j Hj]. assert (O : owned w ii j = true) by (unfold owned; rewrite Hj; apply Z.eqb_refl).
      rewrite (rel_owned _ _ _ ii j R) in O. apply existsb_exists in O. destruct O as (k & K1 & K2).
      assert (B : forall i, In i (q_l (d_q s (QOf ii))) -> 0 < e_sz (d_el s i)).
      { intros i Hi. apply (r_in _ _ _ R) in Hi. destruct Hi as [Hi _].
        destruct (rel_inq_live _ _ _ _ R Hi) as (o & _ & _ & P2 & P3 & _). lia. }
      exact (zsum_pos (fun i => e_sz (d_el s i)) _ k B K1). }
  unfold flush_dirty_of_asks, need_flush, need_flush_now, need_flush_by_ii, ndirty_ii.
  change (hasf F_FSYNC F_NOW) with false. change (flush_threshold F_FSYNC) with 0. cbn [orb].
  destruct (Z.ltb_spec 0 (q_accum (d_q s (QOf ii)))) as [L|L].
  - rewrite andb_true_r. destruct (Z.eqb_spec (q_accum (d_q s (QOf ii))) 0); [lia|]. cbn [negb].
    rewrite orb_true_r. split; [intros _; apply P; exact L|reflexivity].
  - rewrite andb_false_r. split; [discriminate|]. intro X. apply P in X. lia.
Qed.

Example C32_fsync_decision_ex : exists s, drun d_init ex_hist = Some s
  /\ flush_dirty_of_asks s 1 F_FSYNC false = true.
Proof. eexists. split; vm_compute; reflexivity. Qed.

Lemma amount_arith : forall n a b c, n <= 2 ^ 32 -> 0 <= n ->
  0 <= a <= (2 ^ 32 - 1) * 2 ^ 32 -> 0 <= b <= (2 ^ 32 - 1) * 2 ^ 32 -> 0 <= c <= (2 ^ 32 - 1) * 2 ^ 32 ->
  0 <= a + (b + c) <= (2 ^ 32 - 1) * n ->
  ((a + b) mod 2 ^ 64 + c) mod 2 ^ 64 = a + (b + c).
Proof.
  intros. assert (a + (b + c) <= (2 ^ 32 - 1) * 2 ^ 32) by nia.
  rewrite (Z.mod_small (a + b)) by lia. rewrite Z.mod_small by lia. lia.
Qed.

(* The amount for the whole file system is the total size of the objects dirty in the three
   common queues: space maps, inodes, and nodes of no particular file. *)
Theorem C32_fs_amount : forall l, Forall op_ok l ->
  exists s, drun d_init l = Some s /\
    is_total (wsize (wrun [] empty_world l))
      (fun i => match wdirty (wrun [] empty_world l) i with
                | Some OwnUnis => True | Some OwnIis => True | Some OwnVnis => True
                | Some (OwnInode _) => False | None => False end) (ndirty_fs s).
Proof.
  intros l F. destruct (rel_run l _ _ _ rel_init F) as (s & dom & H & R). exists s. split; [exact H|].
  set (w := wrun [] empty_world l) in *.
  set (L := q_l (d_q s QUnis) ++ q_l (d_q s QIis) ++ q_l (d_q s QVnis)).
  assert (D : forall i q, In i (q_l (d_q s q)) <-> wdirty w i = Some (owner_of q)).
  { intros i q. rewrite (r_in _ _ _ R). unfold wdirty. split.
    - intros [H1 H2]. destruct (rel_inq_live _ _ _ _ R H1) as (o & W & _ & _ & _ & q' & Q1 & Q2).
      rewrite W, Q2. congruence.
    - pose proof (r_el _ _ _ R i) as E. destruct (w i) as [o|]; [|discriminate].
      destruct E as (E1 & E2 & E3 & E4 & E5 & q' & E6 & E7). rewrite E5.
      destruct (e_inq (d_el s i)); [|discriminate]. rewrite E6. cbn. intro X. split; [reflexivity|].
      assert (Y : owner_of q' = owner_of q) by congruence. destruct q', q; cbn in Y; congruence. }
  assert (AP : forall (a b : list Z), NoDup a -> NoDup b -> (forall i, In i a -> In i b -> False) -> NoDup (a ++ b)).
  { induction a as [|x a IH]; intros b Na Nb Hd; [exact Nb|]. inversion Na; subst. cbn [app]. constructor.
    - intro X. apply in_app_or in X. destruct X; [contradiction|]. apply (Hd x); [left; reflexivity|assumption].
    - apply IH; auto. intros i Hi. apply Hd. right. exact Hi. }
  assert (N : NoDup L).
  { subst L. apply AP; [apply (r_nd _ _ _ R)|apply AP; try apply (r_nd _ _ _ R)|].
    - intros i X Y. apply D in X. apply D in Y. cbn in X, Y. congruence.
    - intros i X Y. apply in_app_or in Y. apply D in X. destruct Y as [Y|Y]; apply D in Y; cbn in X, Y; congruence. }
  assert (B : forall i, In i L -> 0 <= i < 2 ^ 32 /\ 0 <= e_sz (d_el s i) <= 2 ^ 32 - 1).
  { intros i Hi. assert (exists q, In i (q_l (d_q s q))) as [q Hq].
    { subst L. apply in_app_or in Hi. destruct Hi as [Hi|Hi]; [eauto|]. apply in_app_or in Hi. destruct Hi; eauto. }
    apply (r_in _ _ _ R) in Hq. destruct Hq as [Hq _].
    destruct (rel_inq_live _ _ _ _ R Hq) as (o & _ & H1 & H2 & H3 & _). lia. }
  assert (S : ndirty_fs s = zsum (map (fun i => e_sz (d_el s i)) L)).
  { pose proof (zlen_bounded (2 ^ 32) _ ltac:(lia) N (fun i H => proj1 (B i H))) as Ln.
    pose proof (zsum_bounded (fun i => e_sz (d_el s i)) (2 ^ 32 - 1) _ (fun i H => proj2 (B i H))) as Sb.
    pose proof (zlen_nonneg _ L).
    assert (T : zsum (map (fun i => e_sz (d_el s i)) L) =
      q_accum (d_q s QUnis) + (q_accum (d_q s QIis) + q_accum (d_q s QVnis))).
    { subst L. rewrite !map_app, !zsum_app, !(r_sum _ _ _ R). reflexivity. }
    pose proof (rel_bound _ _ _ QUnis R). pose proof (rel_bound _ _ _ QIis R). pose proof (rel_bound _ _ _ QVnis R).
    unfold ndirty_fs, u64. rewrite T. rewrite T in Sb.
    apply (amount_arith (zlen L)); assumption. }
  exists L. split; [exact N|]. split.
  - intro i. subst L. rewrite !in_app_iff, !D. cbn [owner_of]. destruct (wdirty w i) as [[| | |k]|]; split; intro X; try tauto.
    + destruct X as [X|[X|X]]; discriminate.
    + destruct X as [X|[X|X]]; discriminate.
  - rewrite S. apply zsum_map_ext. intros i Hi.
    assert (exists q, In i (q_l (d_q s q))) as [q Hq].
    { subst L. apply in_app_or in Hi. destruct Hi as [Hi|Hi]; [eauto|]. apply in_app_or in Hi. destruct Hi; eauto. }
    apply (r_in _ _ _ R) in Hq. destruct Hq as [Hq _].
    destruct (rel_inq_live _ _ _ _ R Hq) as (o & W & _ & _ & Z1 & _).
    unfold wsize. rewrite W. exact Z1.
Qed.

Example C32_fs_amount_ex : exists s, drun d_init (ex_hist ++ [DirtyI 1; Redirty 2]) = Some s
  /\ ndirty_fs s = 32768 + 1024 + 65536.
Proof. eexists. split; [vm_compute; reflexivity|]. vm_compute. reflexivity. Qed.

(* Finding: the amount for a file leaves out the inode itself.  After a change that touches
   only the inode (chmod, utimes, truncate up), fsync of the file does not ask for a flush. *)
Theorem C32_file_amount_refuted :
  exists l s, Forall op_ok l /\ drun d_init l = Some s /\ isdirty s 1 = true
    /\ ndirty_ii s 1 = 0 /\ flush_dirty_of_asks s 1 F_FSYNC false = false.
Proof.
  exists [Create 1 KInode 1024; DirtyI 1]. eexists. split.
  - repeat constructor; cbn; lia.
  - split; [vm_compute; reflexivity|]. repeat split; vm_compute; reflexivity.
Qed.

(* Finding: the amount for the whole file system leaves out everything that is dirty on
   behalf of an inode, so that any amount of dirty file data does not trigger a flush
   by the background threshold. *)
Theorem C32_fs_amount_refuted : forall n, 0 <= n < 2 ^ 20 ->
  exists l s, Forall op_ok l /\ drun d_init l = Some s
    /\ q_accum (d_q s (QOf 0)) = n * 65536 /\ ndirty_fs s = 0
    /\ need_flush s None F_IDLE false = false.
Proof.
  intros n Hn.
  set (mk := fun k => [Create (Z.of_nat (S k)) KData 65536; DirtyV (Z.of_nat (S k)) 0]).
  set (l := Create 0 KInode 1024 :: flat_map mk (seq 0 (Z.to_nat n))).
  assert (F : Forall op_ok l).
  { subst l. constructor; [cbn; lia|]. apply Forall_forall. intros o Ho. apply in_flat_map in Ho.
    destruct Ho as (k & K1 & K2). apply in_seq in K1. subst mk. cbn [In] in K2.
    destruct K2 as [<-|[<-|[]]]; cbn [op_ok]; lia. }
  destruct (rel_run l _ _ _ rel_init F) as (s & dom & H & R). exists l, s. split; [exact F|]. split; [exact H|].
  assert (G : forall m, (m <= Z.to_nat n)%nat -> forall i,
     wrun [] empty_world (Create 0 KInode 1024 :: flat_map mk (seq 0 m)) i =
     if i =? 0 then Some (mkO KInode 1024 None false)
     else if (0 <? i) && (i <=? Z.of_nat m) then Some (mkO KData 65536 (Some (OwnInode 0)) false) else None).
  { assert (A : forall l1 l2 dm w, exists dm', wrun dm w (l1 ++ l2) = wrun dm' (wrun dm w l1) l2).
    { induction l1 as [|o l1 IH]; intros l2 dm w0; [exists dm; reflexivity|]. cbn [app wrun]. apply IH. }
    induction m as [|m IH]; intros Hm i.
    - cbn. unfold fset. destruct (Z.eqb_spec i 0); [reflexivity|]. destruct ((0 <? i) && (i <=? 0)) eqn:X; [lia|reflexivity].
    - rewrite seq_S, flat_map_app. cbn [flat_map Nat.add].
      destruct (A (Create 0 KInode 1024 :: flat_map mk (seq 0 m)) (mk m ++ []) [] empty_world) as [dm E].
      cbn [app] in E. rewrite E. clear E.
      set (w := wrun [] empty_world (Create 0 KInode 1024 :: flat_map mk (seq 0 m))) in *.
      assert (IHm := IH ltac:(lia)). clear IH. clearbody w. subst mk. cbv beta. cbn [app wrun dom_step wstep].
      rewrite (IHm (Z.of_nat (S m))). destruct (Z.eqb_spec (Z.of_nat (S m)) 0); [lia|].
      replace ((0 <? Z.of_nat (S m)) && (Z.of_nat (S m) <=? Z.of_nat m)) with false by lia.
      rewrite fset_same. rewrite fset_other by lia. rewrite (IHm 0). cbn [Z.eqb].
      cbn [o_kind is_vnode is_inode negb andb]. unfold mark_if_clean. cbn [o_dirty]. unfold mark, fset.
      cbn [o_kind o_sz o_loose]. destruct (Z.eqb_spec i (Z.of_nat (S m))) as [->|].
      + destruct (Z.eqb_spec (Z.of_nat (S m)) 0); [lia|].
        replace ((0 <? Z.of_nat (S m)) && (Z.of_nat (S m) <=? Z.of_nat (S m))) with true by lia. reflexivity.
      + rewrite IHm. destruct (i =? 0); [reflexivity|].
        replace ((0 <? i) && (i <=? Z.of_nat (S m))) with ((0 <? i) && (i <=? Z.of_nat m)) by lia. reflexivity. }
  specialize (G (Z.to_nat n) (le_n _)). fold l in G.
  assert (T : forall q, (q = QOf 0 -> False) -> q_l (d_q s q) = []).
  { intros q Hq. destruct (q_l (d_q s q)) as [|j r] eqn:L; [reflexivity|]. exfalso.
    assert (X : In j (q_l (d_q s q))) by (rewrite L; left; reflexivity). apply (r_in _ _ _ R) in X.
    destruct X as [X1 X2]. destruct (rel_inq_live _ _ _ _ R X1) as (o & W & _ & _ & _ & q' & Q1 & Q2).
    rewrite G in W. destruct (Z.eqb_spec j 0) as [Y|Y].
    - assert (o = mkO KInode 1024 None false) by congruence. subst o. discriminate.
    - destruct ((0 <? j) && (j <=? Z.of_nat (Z.to_nat n))); [|discriminate].
      assert (o = mkO KData 65536 (Some (OwnInode 0)) false) by congruence. subst o. cbn in Q2.
      apply Hq. destruct q' as [| | |k]; cbn in Q2; try discriminate. congruence. }
  assert (Z0 : ndirty_fs s = 0).
  { unfold ndirty_fs. rewrite !(r_sum _ _ _ R), !T by discriminate. reflexivity. }
  split; [|split; [exact Z0|]].
  - rewrite (r_sum _ _ _ R).
    assert (Q : forall i, In i (q_l (d_q s (QOf 0))) <-> In i (map Z.of_nat (seq 1 (Z.to_nat n)))).
    { intro i. rewrite in_map_iff.
      assert (P : In i (q_l (d_q s (QOf 0))) <-> owned (wrun [] empty_world l) 0 i = true).
      { rewrite (rel_owned _ _ _ 0 i R). rewrite existsb_exists. split.
        - intro X. exists i. split; [exact X|apply Z.eqb_refl].
        - intros (k & K1 & K2). apply Z.eqb_eq in K2. congruence. }
      rewrite P. unfold owned, wdirty. rewrite G. split.
      - destruct (Z.eqb_spec i 0); [discriminate|]. destruct ((0 <? i) && (i <=? Z.of_nat (Z.to_nat n))) eqn:X; [|discriminate].
        intros _. exists (Z.to_nat i). split; [lia|]. apply in_seq. lia.
      - intros (k & <- & K). apply in_seq in K. destruct (Z.eqb_spec (Z.of_nat k) 0); [lia|].
        replace ((0 <? Z.of_nat k) && (Z.of_nat k <=? Z.of_nat (Z.to_nat n))) with true by lia. reflexivity. }
    assert (Perm : Permutation (q_l (d_q s (QOf 0))) (map Z.of_nat (seq 1 (Z.to_nat n)))).
    { apply NoDup_Permutation; [exact (r_nd _ _ _ R _)| |exact Q].
      apply Injective_map_NoDup; [intros a b; lia|apply seq_NoDup]. }
    assert (SZ : forall i, In i (q_l (d_q s (QOf 0))) -> e_sz (d_el s i) = 65536).
    { intros i Hi. pose proof (proj1 (r_in _ _ _ R _ _) Hi) as [X _].
      destruct (rel_inq_live _ _ _ _ R X) as (o & W & _ & _ & S1 & q' & Q1 & Q2). rewrite S1. rewrite G in W.
      destruct (i =? 0); [assert (o = mkO KInode 1024 None false) by congruence; subst o; discriminate|].
      destruct ((0 <? i) && (i <=? Z.of_nat (Z.to_nat n))); [|discriminate].
      assert (o = mkO KData 65536 (Some (OwnInode 0)) false) by congruence. subst o. reflexivity. }
    rewrite (zsum_map_ext _ (fun _ => 65536) _ SZ).
    assert (C : forall m : list Z, zsum (map (fun _ => 65536) m) = 65536 * zlen m).
    { induction m as [|a m IH]; [reflexivity|]. cbn [map]. rewrite zsum_cons, IH. unfold zlen. cbn [length]. lia. }
    rewrite C. unfold zlen. rewrite (Permutation_length Perm), map_length, seq_length. lia.
  - unfold need_flush, need_flush_now, need_flush_by_fsenv. rewrite Z0. reflexivity.
Qed.

Print Assumptions C32_counters_exact.
Print Assumptions C32_fsync_decision.
Print Assumptions C32_file_amount_refuted.
Print Assumptions C32_fs_amount_refuted.
Print Assumptions C32_fs_amount.
