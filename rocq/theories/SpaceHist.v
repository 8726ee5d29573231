(* Histories of the space: what callers own, as a list of references, and that the invariant
   holds after every history. *)
From Verif Require Import Base AddrModel MapModel SpaModel SpaProofs SpaceModel SpaceBits SpaceLeaf SpaceProofs SpaceOps.

From Coq Require Import Permutation.
Local Opaque sumn popcount.

Lemma pdec : forall a b : Z * Z, {a = b} + {a <> b}.
Proof. intros [a1 a2] [b1 b2]. destruct (Z.eq_dec a1 b1); destruct (Z.eq_dec a2 b2); subst; auto; right; congruence. Defined.

(* one reference given back *)
Fixpoint remove1 (p : Z * Z) (L : list (Z * Z)) : list (Z * Z) :=
  match L with [] => [] | q :: r => if pdec p q then r else q :: remove1 p r end.
(* number of references to an object *)
Definition owners (L : list (Z * Z)) (t v : Z) : Z := Z.of_nat (count_occ pdec L (t, v)).
(* the distinct live objects of one kind *)
Definition live_of (L : list (Z * Z)) (t : Z) : list (Z * Z) := filter (fun p => fst p =? t) (nodup pdec L).

(* the references held after an operation, from its arguments and result only *)
Definition lnext (L : list (Z * Z)) (op : sop) (r : out (option Z)) : list (Z * Z) :=
  match op, r with
  | SClaim t, Ok (Some v) => (t, v) :: L
  | SShare t v, Ok _ => (t, v) :: L
  | SRelease t v, Ok _ => remove1 (t, v) L
  | _, _ => L
  end.
(* has the object been written since it was claimed (or last marked unwritten) *)
Definition wnext (w : Z -> Z -> bool) (op : sop) (r : out (option Z)) : Z -> Z -> bool :=
  match op, r with
  | SClaim t, Ok (Some v) => at1 w t v false
  | SWritten t v, Ok _ => at1 w t v true
  | SUnwritten t v, Ok _ => at1 w t v false
  | _, _ => w
  end.
(* what callers do: operate on what they own; only whole data blocks are shared (lib/file.c:2208);
   only data is marked written or not *)
Definition legal (L : list (Z * Z)) (op : sop) : Prop :=
  match op with
  | SClaim t => isv t
  | SShare t v => t = LT_DATABK /\ In (t, v) L
  | SRelease t v => In (t, v) L
  | SWritten t v | SUnwritten t v => ltype_isdata t = true /\ In (t, v) L
  | _ => True
  end.
Inductive hist (cap : Z) : space -> list (Z * Z) -> (Z -> Z -> bool) -> Prop :=
| HFormat : hist cap (formatted cap) [] (fun _ _ => false)
| HStep : forall s L w op o s' r, hist cap s L w -> legal L op -> sstep s op o = (s', r) -> r <> Ub ->
    hist cap s' (lnext L op r) (wnext w op r).

Lemma owners_cons_same : forall L t v, owners ((t, v) :: L) t v = owners L t v + 1.
Proof. intros. unfold owners. rewrite count_occ_cons_eq by reflexivity. lia. Qed.
Lemma owners_cons_other : forall L p t v, p <> (t, v) -> owners (p :: L) t v = owners L t v.
Proof. intros. unfold owners. rewrite count_occ_cons_neq by auto. reflexivity. Qed.
Lemma owners_pos : forall L t v, In (t, v) L <-> 0 < owners L t v.
Proof. intros. unfold owners. rewrite (count_occ_In pdec). lia. Qed.
Lemma remove1_perm : forall p L, In p L -> Permutation L (p :: remove1 p L).
Proof.
  induction L as [|q L IH]; intros H; [destruct H|]. cbn [remove1]. destruct (pdec p q) as [->|Hn]; [auto|].
  destruct H as [->|H]; [congruence|]. rewrite (IH H) at 1. apply perm_swap.
Qed.
Lemma owners_perm : forall L M t v, Permutation L M -> owners L t v = owners M t v.
Proof. intros L M t v H. unfold owners. f_equal. apply (Permutation_count_occ pdec). auto. Qed.
Lemma owners_remove : forall L t v t' v', In (t, v) L ->
  owners (remove1 (t, v) L) t' v' = at1 (owners L) t v (owners L t v - 1) t' v'.
Proof.
  intros L t v t' v' H. pose proof (remove1_perm _ _ H) as P. unfold at1.
  destruct ((t' =? t) && (v' =? v)) eqn:E.
  - assert (t' = t /\ v' = v) as [-> ->] by lia. rewrite (owners_perm _ _ t v P), owners_cons_same. lia.
  - rewrite (owners_perm _ _ t' v' P). rewrite owners_cons_other; auto. intros X. injection X as -> ->. lia.
Qed.
Lemma live_perm : forall L M t, Permutation L M -> zlen (live_of L t) = zlen (live_of M t).
Proof.
  intros L M t H. unfold live_of. assert (Permutation (nodup pdec L) (nodup pdec M)) as P.
  { apply NoDup_Permutation; try apply NoDup_nodup. intros x. rewrite !nodup_In. split; apply Permutation_in; auto. symmetry. auto. }
  unfold zlen. f_equal. apply Permutation_length.
  clear H. induction P; cbn [filter]; auto.
  - destruct (fst x =? t); auto.
  - destruct (fst x =? t); destruct (fst y =? t); auto. apply perm_swap.
  - etransitivity; eauto.
Qed.
Lemma live_cons : forall L t v t', zlen (live_of ((t, v) :: L) t') =
  zlen (live_of L t') + (if t' =? t then if 0 <? owners L t v then 0 else 1 else 0).
Proof.
  intros L t v t'. unfold live_of. cbn [nodup]. destruct (in_dec pdec (t, v) L) as [Hi|Hi].
  - pose proof (proj1 (owners_pos L t v) Hi). destruct (t' =? t); [|lia]. destruct (Z.ltb_spec 0 (owners L t v)); lia.
  - cbn [filter fst]. rewrite (Z.eqb_sym t t'). destruct (t' =? t); [|lia].
    destruct (Z.ltb_spec 0 (owners L t v)) as [Hp|_]; [apply owners_pos in Hp; contradiction|]. unfold zlen. cbn [length]. lia.
Qed.

Lemma inv_ext : forall refs wr N refs' wr' N' s, inv refs wr N s ->
  (forall t v, refs' t v = refs t v) -> (forall t v, wr' t v = wr t v) -> (forall t, isv t -> N' t = N t) -> inv refs' wr' N' s.
Proof.
  intros refs wr N refs' wr' N' s [I1 [I2 [I3 I4]]] ER EW EN. split; [|split; [|split]].
  - intros t v. unfold ref_ok. rewrite !ER. apply I1.
  - intros t i l Ht Hl. destruct (I2 t i l Ht Hl) as [J [J1 J2]]. split; [auto|]. split; [|auto]. intros k Hk.
    apply slot_inv_ext with (refs := refs) (wr := wr); [|auto]. intros j Hj. split; auto.
  - intros t Ht. destruct (I3 t Ht) as [C1 [C2 [C3 [C4 C5]]]]. split; [auto|]. split; [auto|]. split; [auto|]. split; [auto|].
    intros b Hb. destruct (C5 b Hb) as [D1 [D2 D3]]. split; [auto|]. split; [auto|]. rewrite ER. auto.
  - intros t Ht. rewrite EN by auto. auto.
Qed.

Notation hinv s L w := (inv (owners L) w (fun t => zlen (live_of L t)) s).

Lemma vtypes_nodup : NoDup VTYPES.
Proof. unfold VTYPES. repeat (apply NoDup_cons; [intros H; cbn in H; intuition discriminate|]). apply NoDup_nil. Qed.
Lemma vtypes_isv : Forall isv VTYPES.
Proof. unfold VTYPES, isv. repeat constructor; discriminate. Qed.

Lemma hinv_format : forall cap, hinv (formatted cap) [] (fun _ _ => false).
Proof.
  intros cap. split; [|split; [|split]].
  - intros t v. split; [apply Z.le_refl|]. intros H. unfold owners in H. cbn in H. lia.
  - intros t i l _ H. discriminate.
  - intros t Ht. apply empty_cache with (m := spamap_init t); auto. apply Z.le_refl.
  - intros t Ht. unfold formatted. rewrite objs_add_other by (unfold isv, LT_INODE, LT_SUPER in *; lia). reflexivity.
Qed.

Lemma hinv_step : forall s L w op o s' r, hinv s L w -> legal L op -> sstep s op o = (s', r) -> r <> Ub ->
  hinv s' (lnext L op r) (wnext w op r).
Proof.
  intros s L w op o s' r HI HL HS HU. destruct op as [t|t v|t v|t v|t v| |t i|fresh|]; cbn [sstep legal] in *.
  - pose proof (tri_claim _ _ _ t HL s o HI) as T. destruct (claim t s o) as [[s1 o1] x]. injection HS as <- <-.
    destruct x as [v| | |]; cbn [lnext wnext]; [|exact T|exact T|congruence].
    destruct T as [T [T1 _]]. apply inv_ext with (1 := T); auto.
    + intros t' v'. unfold at1. destruct ((t' =? t) && (v' =? v)) eqn:E.
      * assert (t' = t /\ v' = v) as [-> ->] by lia. rewrite owners_cons_same, T1. reflexivity.
      * apply owners_cons_other. intros X. injection X as -> ->. lia.
    + intros t' Ht'. rewrite live_cons, T1. cbn [Z.ltb Z.compare]. unfold fset. destruct (Z.eqb_spec t' t) as [->|]; lia.
  - destruct HL as [-> Hi]. apply owners_pos in Hi. pose proof (tri_addref _ _ _ v Hi s o HI) as T.
    destruct (addref LT_DATABK v s o) as [[s1 o1] x]. injection HS as <- <-.
    destruct x as [[]| | |]; cbn [lnext wnext]; [|exact T|exact T|congruence]. apply inv_ext with (1 := T); auto.
    + intros t' v'. unfold at1. destruct ((t' =? LT_DATABK) && (v' =? v)) eqn:E.
      * assert (t' = LT_DATABK /\ v' = v) as [-> ->] by lia. apply owners_cons_same.
      * apply owners_cons_other. intros X. injection X as X1 X2. lia.
    + intros t' Ht'. rewrite live_cons. destruct (Z.ltb_spec 0 (owners L LT_DATABK v)); [|lia]. destruct (_ =? _); lia.
  - pose proof HL as Hi. apply owners_pos in Hi. pose proof (tri_reclaim _ _ _ t v Hi s o HI) as T.
    destruct (reclaim t v s o) as [[s1 o1] x]. injection HS as <- <-.
    destruct x as [[]| | |]; cbn [lnext wnext]; [|exact T|exact T|congruence]. apply inv_ext with (1 := T); auto.
    + intros t' v'. apply owners_remove. auto.
    + intros t' Ht'. pose proof (remove1_perm _ _ HL) as P. pose proof (live_perm _ _ t' P) as E. rewrite live_cons in E.
      rewrite owners_remove, at1_same in E by auto.
      destruct (Z.eqb_spec (owners L t v) 1) as [E1|E1]; unfold fset; destruct (Z.eqb_spec t' t) as [->|].
      * destruct (Z.ltb_spec 0 (owners L t v - 1)); lia.
      * lia.
      * destruct (Z.ltb_spec 0 (owners L t v - 1)); lia.
      * lia.
  - destruct HL as [Hd Hi]. apply owners_pos in Hi. pose proof (tri_flag _ _ _ t v true Hi Hd s o HI) as T. cbv iota in T.
    destruct (clear_unwritten t v s o) as [[s1 o1] x]. injection HS as <- <-.
    destruct x as [[]| | |]; cbn [lnext wnext]; [exact T|exact T|exact T|congruence].
  - destruct HL as [Hd Hi]. apply owners_pos in Hi. pose proof (tri_flag _ _ _ t v false Hi Hd s o HI) as T. cbv iota in T.
    destruct (mark_unwritten t v s o) as [[s1 o1] x]. injection HS as <- <-.
    destruct x as [[]| | |]; cbn [lnext wnext]; [exact T|exact T|exact T|congruence].
  - injection HS as <- <-. apply inv_drop. auto.
  - injection HS as <- <-. apply inv_reload. auto.
  - set (s0 := reload_leaves (if fresh then new_cache s else drop_cache s)) in *.
    assert (I0 : hinv s0 L w) by (apply inv_reload_all; destruct fresh; [apply inv_new|apply inv_drop]; auto).
    assert (E0 : Forall (fun t => empty_of t s0) VTYPES).
    { apply Forall_forall. intros t _. unfold s0, empty_of. destruct fresh; split; reflexivity. }
    pose proof (inv_rescan_all (owners L) w (fun t => zlen (live_of L t)) VTYPES s0 o vtypes_nodup vtypes_isv I0 E0) as T. destruct (rescan_all VTYPES s0 o) as [[s1 o1] x].
    injection HS as <- <-. cbn [lnext wnext]. destruct T as [->|T]; [congruence|auto].
  - injection HS as <- <-. apply inv_fork. auto.
Qed.

Lemma hist_inv : forall cap s L w, hist cap s L w -> hinv s L w.
Proof. intros cap s L w H. induction H; [apply hinv_format|]. apply hinv_step with (s := s) (o := o); auto. Qed.

(* ---- with memory available no step ends in undefined behaviour ---- *)
Definition calm {A} (m : M A) : Prop := forall s o, Forall (eq true) o ->
  let '(_, o', r) := m s o in r <> Ub /\ Forall (eq true) o'.
Lemma calm_bind : forall A B (m : M A) (f : A -> M B), calm m -> (forall a, calm (f a)) -> calm (bind m f).
Proof.
  intros A B m f H1 H2 s o Ho. unfold bind. specialize (H1 s o Ho). destruct (m s o) as [[s1 o1] r]. destruct H1 as [H1 H1'].
  destruct r as [a| | |]; try (split; [discriminate|auto]); [|congruence]. apply H2. auto.
Qed.
Lemma calm_ret : forall A (a : A), calm (ret a). Proof. intros A a s o Ho. cbn. split; [discriminate|auto]. Qed.
Lemma calm_stop : forall A (e : out A), e <> Ub -> calm (stop e). Proof. intros A e He s o Ho. cbn. auto. Qed.
Lemma calm_get : calm get. Proof. intros s o Ho. cbn. split; [discriminate|auto]. Qed.
Lemma calm_put : forall f, calm (put f). Proof. intros f s o Ho. cbn. split; [discriminate|auto]. Qed.
Lemma hd_true : forall o, Forall (eq true) o -> hd true o = true.
Proof. intros o H. destruct H; auto. Qed.
Lemma tl_true : forall o, Forall (eq true) o -> Forall (eq true) (tl o).
Proof. intros o H. destruct H; cbn; auto. Qed.
Lemma calm_may_fail : calm may_fail.
Proof. intros s o Ho. unfold may_fail, bind, tick. rewrite (hd_true _ Ho). cbn. split; [discriminate|apply tl_true; auto]. Qed.
Lemma add_not_ub : forall m off len, spamap_add m off len true <> SUb.
Proof.
  intros m off len. unfold spamap_add. destruct (spalifo_add _ _ _); [discriminate|]. destruct (spamap_merge m off len true) as [r|] eqn:E.
  - unfold spamap_merge in E. destruct (split_at _ _ _) as [b a]. destruct b as [|p b]; destruct a as [|n c]; try discriminate;
    repeat (destruct (_ =? _)); try discriminate; injection E as <-; discriminate.
  - destruct (_ <? _); discriminate.
Qed.
Lemma calm_store : forall t off len, calm (cache_store t off len).
Proof.
  intros t off len s o Ho. unfold cache_store, bind, tick. rewrite (hd_true _ Ho). pose proof (tl_true _ Ho).
  pose proof (add_not_ub (sv_cache s t) off len) as A. destruct (spamap_add _ _ _ _); try (split; [discriminate|auto]). congruence.
Qed.
Ltac calm1 := match goal with
  | |- calm may_fail => apply calm_may_fail
  | |- calm (cache_store _ _ _) => apply calm_store
  | |- calm (ret _) => apply calm_ret
  | |- calm get => apply calm_get
  | |- calm (put _) => apply calm_put
  | |- calm (stop _) => apply calm_stop; discriminate
  | |- calm (bind _ _) => apply calm_bind; [|intros ?]
  | |- calm (match ?x with _ => _ end) => destruct x
  | |- calm (if ?x then _ else _) => destruct x
  | H : _ |- _ => exact H
  end.
Ltac calm := repeat calm1.
Lemma calm_maps : forall t v, calm (require_spmaps t v).
Proof. intros. unfold require_spmaps, require_spnode, require_spleaf. cbv zeta. calm. Qed.
Lemma calm_with_leaf : forall A t v (f : sleaf -> M A), (forall l, calm (f l)) -> calm (with_leaf t v f).
Proof. intros. unfold with_leaf. apply calm_bind; [apply calm_get|]. intros s. destruct (sv_leaf _ _ _); auto. apply calm_stop. discriminate. Qed.
Lemma calm_find : forall t v, calm (find_free_at t v).
Proof. intros. unfold find_free_at. apply calm_with_leaf. intros l. calm. Qed.
Lemma calm_scan : forall t, calm (require_by_spmaps t).
Proof.
  intros t s o Ho. unfold require_by_spmaps.
  pose proof (ploop_inv _ _ (fun st : space * list bool * Z => Forall (eq true) (snd (fst st)))
    (fun r : space * list bool * out Z => snd r <> Ub /\ Forall (eq true) (snd (fst r))) (scan_body t)) as PL.
  assert (H : forall st, Forall (eq true) (snd (fst st)) -> match scan_body t st with inl st' => Forall (eq true) (snd (fst st')) | inr r => snd r <> Ub /\ Forall (eq true) (snd (fst r)) end).
  { intros [[s1 o1] v] H1. cbn [fst snd] in H1. unfold scan_body. destruct (_ <? _); [|cbn; split; [discriminate|auto]].
    assert (C : calm (require_vspace_at t v)) by (unfold require_vspace_at; apply calm_bind; [apply calm_may_fail|intros ?]; apply calm_bind; [apply calm_maps|intros ?]; apply calm_find).
    specialize (C s1 o1 H1). destruct (require_vspace_at t v s1 o1) as [[s2 o2] r]. destruct C as [C1 C2]. destruct r; cbn; auto; split; auto; discriminate. }
  specialize (PL H SCAN_ROUNDS (s, o, sp_hint (sv_cache s t)) Ho).
  destruct (ploop SCAN_ROUNDS _ _) as [[[s1 o1] v]|[[s1 o1] r]]; cbn in PL; [split; [discriminate|auto]|auto].
Qed.
Lemma calm_pop : forall t, calm (cache_pop t).
Proof. intros t s o Ho. unfold cache_pop. destruct (spamap_pop _ _) as [[m v]|]; split; auto; discriminate. Qed.
Ltac calm2 := repeat first [calm1 | match goal with
  | |- calm (require_spmaps _ _) => apply calm_maps
  | |- calm (require_by_spmaps _) => apply calm_scan
  | |- calm (cache_pop _) => apply calm_pop
  | |- calm (with_leaf _ _ _) => apply calm_with_leaf; intros ?
  end].
Lemma calm_claim : forall t, calm (claim t).
Proof.
  intros t. unfold claim, check_avail, require_unalloc, check_want, mark.
  calm2.
Qed.
Lemma calm_reclaim : forall t v, calm (reclaim t v).
Proof. intros. unfold reclaim. cbv zeta; calm2. Qed.
Lemma calm_others : forall t v, calm (addref t v) /\ calm (clear_unwritten t v) /\ calm (mark_unwritten t v).
Proof.
  intros. unfold addref, clear_unwritten, mark_unwritten.
  split; [|split]; cbv zeta; calm2.
Qed.
Lemma calm_rescan : forall t, calm (rescan t).
Proof.
  intros t s o Ho. unfold rescan.
  pose proof (ploop_inv _ _ (fun st : space * list bool * Z => Forall (eq true) (snd (fst st)))
    (fun r : space * list bool * out Z => snd r <> Ub /\ Forall (eq true) (snd (fst r))) (rescan_body t)) as PL.
  assert (H : forall st, Forall (eq true) (snd (fst st)) -> match rescan_body t st with inl st' => Forall (eq true) (snd (fst st')) | inr r => snd r <> Ub /\ Forall (eq true) (snd (fst r)) end).
  { intros [[s1 o1] v] H1. cbn [fst snd] in H1. unfold rescan_body. destruct (_ <? _); [|cbn; split; [discriminate|auto]].
    assert (C : calm (bind may_fail (fun _ => with_leaf t v (fun _ => ret tt)))).
    { apply calm_bind; [apply calm_may_fail|intros ?]. apply calm_with_leaf. intros l. apply calm_ret. }
    specialize (C s1 o1 H1). destruct (bind may_fail _ s1 o1) as [[s2 o2] r]. destruct C as [C1 C2].
    destruct r; try (cbn; split; [discriminate|auto]).
    pose proof (calm_find t v (set_cache s2 t (mkSpa (sp_lifo (sv_cache s2 t)) (sp_ulen (sv_cache s2 t)) (sp_ents (sv_cache s2 t)) (sp_cap (sv_cache s2 t)) v)) o2 C2) as F.
    destruct (find_free_at t v _ o2) as [[s3 o3] r3]. destruct F as [F1 F2]. destruct r3; cbn; auto; split; auto; discriminate. }
  specialize (PL H SCAN_ROUNDS (s, o, 0) Ho).
  destruct (ploop SCAN_ROUNDS _ _) as [[[s1 o1] v]|[[s1 o1] r]]; cbn in PL; [split; [discriminate|auto]|].
  destruct PL as [P1 P2]. destruct r as [v| | |]; try (split; [discriminate|auto]); [|congruence].
  destruct (sv_leaf s1 t (leaf_index v)); [|split; [discriminate|auto]]. destruct (_ <? _); [split; [discriminate|auto]|].
  apply (calm_store t v (ltype_size t) s1 o1 P2).
Qed.
Lemma calm_rescan_all : forall ts, calm (rescan_all ts).
Proof.
  induction ts as [|t ts IH]; intros s o Ho; cbn [rescan_all]; [split; [discriminate|auto]|].
  pose proof (calm_rescan t s o Ho) as C. destruct (rescan t s o) as [[s1 o1] x]. destruct C as [C1 C2].
  destruct x; try (apply IH; auto). congruence.
Qed.
Lemma calm_step : forall s op o, Forall (eq true) o -> snd (sstep s op o) <> Ub.
Proof.
  intros s op o Ho. destruct op as [t|t v|t v|t v|t v| |t i|fresh|]; cbn [sstep].
  - pose proof (calm_claim t s o Ho) as C. destruct (claim t s o) as [[s1 o1] x]. destruct C. destruct x; cbn; congruence.
  - pose proof (proj1 (calm_others t v) s o Ho) as C. destruct (addref t v s o) as [[s1 o1] x]. destruct C. destruct x; cbn; congruence.
  - pose proof (calm_reclaim t v s o Ho) as C. destruct (reclaim t v s o) as [[s1 o1] x]. destruct C. destruct x; cbn; congruence.
  - pose proof (proj1 (proj2 (calm_others t v)) s o Ho) as C. destruct (clear_unwritten t v s o) as [[s1 o1] x]. destruct C. destruct x; cbn; congruence.
  - pose proof (proj2 (proj2 (calm_others t v)) s o Ho) as C. destruct (mark_unwritten t v s o) as [[s1 o1] x]. destruct C. destruct x; cbn; congruence.
  - cbn [snd]. discriminate.
  - cbn [snd]. discriminate.
  - pose proof (calm_rescan_all VTYPES (reload_leaves (if fresh then new_cache s else drop_cache s)) o Ho) as C.
    destruct (rescan_all VTYPES _ o) as [[s1 o1] x]. destruct C. destruct x; cbn; congruence.
  - cbn [snd]. discriminate.
Qed.

(* ---- counting live objects of a leaf ---- *)
Definition live_in (L : list (Z * Z)) (t i : Z) : list (Z * Z) :=
  filter (fun p => snd p / LEAF_SPAN =? i) (live_of L t).

Lemma sum_members : forall (K : nat) (u base t : Z) D, 0 < u -> NoDup D ->
  (forall p, In p D -> exists n, 0 <= n < Z.of_nat K /\ p = (t, base + n * u)) ->
  sumn K (fun n => if in_dec pdec (t, base + n * u) D then 1 else 0) = zlen D.
Proof.
  intros K u base t D Hu. induction D as [|p D IH]; intros ND HD.
  - rewrite (sumn_ext K _ (fun _ => 0)) by (intros n _; destruct (in_dec pdec (t, base + n * u) []) as [[]|]; reflexivity). rewrite sumn_const. unfold zlen. cbn [length]. lia.
  - apply NoDup_cons_iff in ND. destruct ND as [N1 N2]. destruct (HD p (or_introl eq_refl)) as [n0 [B0 E0]].
    set (f := fun n => if in_dec pdec (t, base + n * u) D then 1 else 0).
    set (g := fun n => if in_dec pdec (t, base + n * u) (p :: D) then 1 else 0).
    assert (G : sumn K g = sumn K f + 1).
    { apply sumn_point with (k := n0); [lia|]. intros j Hj. unfold f, g.
      destruct (in_dec pdec (t, base + j * u) (p :: D)) as [Hi|Hi]; destruct (in_dec pdec (t, base + j * u) D) as [Hi'|Hi'];
      destruct (Z.eqb_spec j n0) as [->|Hn]; try lia.
      - exfalso. apply N1. rewrite E0. auto.
      - destruct Hi as [Hi|Hi]; [|contradiction]. rewrite E0 in Hi. injection Hi as Hi. nia.
      - exfalso. apply Hi. right. auto.
      - exfalso. apply Hi. right. auto.
      - exfalso. apply Hi. left. auto. }
    rewrite G. unfold f. rewrite IH; auto.
    + unfold zlen. cbn [length]. lia.
    + intros q Hq. apply HD. right. auto.
Qed.

Lemma leaf_count : forall refs wr L t i, (forall v, refs t v = owners L t v) -> isv t -> 0 <= i ->
  (forall v, In (t, v) L -> 0 <= v /\ v mod usz t = 0) -> forall l, leaf_inv refs wr t i l ->
  sl_nused l = usz t * zlen (live_in L t i).
Proof.
  intros refs wr L t i ER Ht Hi HL l H. rewrite (sum_objects refs wr t i l Ht Hi H). f_equal.
  pose proof (usz_pos t Ht) as [Up Um].
  assert (Z.divide (usz t) 65536) as [q Hq] by (apply Z.mod_divide; lia).
  assert (Q0 : 0 < q) by nia.
  assert (LS : LEAF_SPAN = (256 * q) * usz t) by (unfold LEAF_SPAN, LBK_SIZE, NCHILDS; lia).
  rewrite LS. rewrite Z.div_mul by lia.
  rewrite <- (sum_members (Z.to_nat (256 * q)) (usz t) (i * (256 * q * usz t)) t (live_in L t i)).
  - apply sumn_ext. intros n Hn. rewrite ER. set (v := i * (256 * q * usz t) + n * usz t).
    assert (VI : v / LEAF_SPAN = i).
    { symmetry. apply Z.div_unique with (r := n * usz t); [left; split; [nia|]; rewrite LS; nia|]. unfold v. rewrite LS. lia. }
    destruct (in_dec pdec (t, v) (live_in L t i)) as [Hin|Hin].
    + unfold live_in, live_of in Hin. rewrite !filter_In, nodup_In in Hin. destruct Hin as [[Hin _] _].
      apply owners_pos in Hin. destruct (Z.ltb_spec 0 (owners L t v)); [reflexivity|lia].
    + destruct (Z.ltb_spec 0 (owners L t v)) as [Hp|]; [|reflexivity]. exfalso. apply Hin. apply owners_pos in Hp.
      unfold live_in, live_of. rewrite !filter_In, nodup_In. cbn [fst snd]. rewrite VI, !Z.eqb_refl. auto.
  - lia.
  - unfold live_in, live_of. apply NoDup_filter, NoDup_filter, NoDup_nodup.
  - intros [t' v] Hin. unfold live_in, live_of in Hin. rewrite !filter_In, nodup_In in Hin. cbn [fst snd] in Hin.
    destruct Hin as [[Hin E1] E2]. apply Z.eqb_eq in E1, E2. subst t'. destruct (HL v Hin) as [V0 V1].
    apply Z.mod_divide in V1; [|lia]. destruct V1 as [p Hp]. rewrite LS in E2.
    assert (B : i * (256 * q * usz t) <= v < (i + 1) * (256 * q * usz t)).
    { pose proof (Z.div_mod v (256 * q * usz t) ltac:(nia)). pose proof (Z.mod_pos_bound v (256 * q * usz t) ltac:(nia)). rewrite E2 in *. lia. }
    exists (p - i * (256 * q)). split; [|f_equal; lia]. rewrite Z2Nat.id by lia.
    assert (i * (256 * q) <= p < (i + 1) * (256 * q)); [|lia].
    split; [apply (Z.mul_le_mono_pos_r _ _ (usz t)); lia|apply (Z.mul_lt_mono_pos_r (usz t)); lia].
Qed.
