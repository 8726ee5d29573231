(* Proofs about the object cache of CacheModel.v: single objects are created, marked, and removed. *)
From Coq Require Import ZArith List Lia Bool Permutation.
From Verif Require Import Base AddrModel CacheModel CacheProofs.
Import ListNotations.
Open Scope Z_scope.

Section Ops.
Variable H64 : lsid -> Z.
Local Notation "m ;;; k" := (cbind m (fun _ => k)) (at level 100, right associativity).
Notation Inv := (Inv H64).
Notation good := (good H64).

Definition cls_eqb (a b : cls) : bool := match a, b with CV, CV => true | CU, CU => true | _, _ => false end.
Lemma cls_eqb_eq a b : cls_eqb a b = true <-> a = b.
Proof. destruct a, b; cbn; split; easy. Qed.
Definition b2z (b : bool) : Z := if b then 1 else 0.
(* in which lists the object is: LRU list, table, chain, queue *)
Definition inL (o : option node) (c : cls) : bool := match o with Some n => cls_eqb (ncls n) c | None => false end.
Definition inM (o : option node) (c : cls) : bool := match o with Some n => cls_eqb (ncls n) c && n_mapped n | None => false end.
Definition inC (h : hmapq) (o : option node) (c : cls) (k : Z) : bool :=
  match o with Some n => cls_eqb (ncls n) c && n_mapped n && (slot_of h (n_hash n) =? k) | None => false end.
Definition inQ (o : option node) (q : qid) : bool :=
  match o with Some n => n_inq n && match n_dq n with Some q' => qid_eqb q' q | None => false end | None => false end.
Definition szQ (o : option node) (q : qid) : Z := if inQ o q then match o with Some n => n_sz n | None => 0 end else 0.
Definition is_ino (o : option node) : bool := match o with Some n => is_inode n | None => false end.

Lemma del_In_other i j l l' : del i l' = del i l -> j <> i -> (In j l' <-> In j l).
Proof.
  intros D N. split; intros H.
  - assert (A : In j (del i l')) by (apply In_del; auto). rewrite D in A. now apply In_del in A.
  - assert (A : In j (del i l)) by (apply In_del; auto). rewrite <- D in A. now apply In_del in A.
Qed.
Lemma del_len (f : Z -> bool) i l b : NoDup l -> (In i l <-> b = true) ->
  zlen (filter f l) = zlen (filter f (del i l)) + b2z (b && f i).
Proof.
  intros N B. destruct b.
  - pose proof (perm_del i l N (proj2 B eq_refl)) as P.
    rewrite (zlen_perm _ _ (filter_perm f _ _ P)). cbn [filter andb].
    destruct (f i); [rewrite zlen_cons|]; cbn [b2z]; lia.
  - rewrite del_notin; [cbn; lia|]. intros H. apply B in H. discriminate.
Qed.
Lemma filter_true {A} (l : list A) : filter (fun _ => true) l = l.
Proof. induction l as [|a t IH]; cbn [filter]; [easy|now rewrite IH]. Qed.
Lemma del_sum (f : Z -> Z) i l b : NoDup l -> (In i l <-> b = true) ->
  zsum (map f l) = zsum (map f (del i l)) + (if b then f i else 0).
Proof.
  intros N B. destruct b.
  - pose proof (perm_del i l N (proj2 B eq_refl)) as P.
    rewrite (zsum_perm _ _ (Permutation_map f P)). cbn [map]. rewrite zsum_cons. lia.
  - rewrite del_notin; [lia|]. intros H. apply B in H. discriminate.
Qed.

Lemma Inv_inL s i c : Inv s -> (In i (hq_lru (lc_hm s c)) <-> inL (lc_node s i) c = true).
Proof.
  intros I. rewrite (I_lru _ _ I). unfold inL. destruct (lc_node s i) as [n|].
  - rewrite cls_eqb_eq. split; [intros (m & E & K); congruence|eauto].
  - split; [intros (m & E & _); discriminate|discriminate].
Qed.
Lemma Inv_inC s i c k : Inv s -> (In i (hq_tbl (lc_hm s c) k) <-> inC (lc_hm s c) (lc_node s i) c k = true).
Proof.
  intros I. rewrite (I_ch _ _ I). unfold inC. destruct (lc_node s i) as [n|].
  - rewrite !andb_true_iff, cls_eqb_eq, Z.eqb_eq. split; [intros (m & E & K & M & S)|intros [[K M] S]; eauto].
    assert (m = n) by congruence. subst. auto.
  - split; [intros (m & E & _); discriminate|discriminate].
Qed.
Lemma Inv_inQ s i q : Inv s -> (In i (dq_l (lc_q s q)) <-> inQ (lc_node s i) q = true).
Proof.
  intros I. rewrite (I_q _ _ I). unfold inQ. destruct (lc_node s i) as [n|].
  - rewrite andb_true_iff. split.
    + intros (m & E & M & Q). assert (m = n) by congruence. subst. split; [easy|]. rewrite Q. now apply qid_eqb_eq.
    + intros [M Q]. exists n. destruct (n_dq n) as [q'|]; [|discriminate]. apply qid_eqb_eq in Q. now subst.
  - split; [intros (m & E & _); discriminate|discriminate].
Qed.

(* the lists after a change of one object *)
Definition rel (i : Z) (l l' : list Z) (b : bool) : Prop := del i l' = del i l /\ NoDup l' /\ (In i l' <-> b = true).

Lemma Inv_put s s' i o' : Inv s ->
  (forall j, lc_node s' j = fset (lc_node s) i o' j) ->
  (forall c, hq_nslots (lc_hm s' c) = hq_nslots (lc_hm s c)) ->
  lc_next s <= lc_next s' ->
  (forall n, o' = Some n -> good s' i n) ->
  (forall c, rel i (hq_lru (lc_hm s c)) (hq_lru (lc_hm s' c)) (inL o' c)) ->
  (forall c, hq_sz (lc_hm s' c) = hq_sz (lc_hm s c) + b2z (inL o' c) - b2z (inL (lc_node s i) c)) ->
  (forall c k, rel i (hq_tbl (lc_hm s c) k) (hq_tbl (lc_hm s' c) k) (inC (lc_hm s c) o' c k)) ->
  (forall c, hq_size (lc_hm s' c) = hq_size (lc_hm s c) + b2z (inM o' c) - b2z (inM (lc_node s i) c)) ->
  (forall q, rel i (dq_l (lc_q s q)) (dq_l (lc_q s' q)) (inQ o' q)) ->
  (forall q, dq_sz (lc_q s' q) = dq_sz (lc_q s q) + b2z (inQ o' q) - b2z (inQ (lc_node s i) q)) ->
  (forall q, dq_accum (lc_q s' q) = dq_accum (lc_q s q) + szQ o' q - szQ (lc_node s i) q) ->
  (is_ino o' = true \/ is_ino (lc_node s i) = false \/ dq_l (lc_q s (QIno i)) = []) ->
  (match o' with
   | Some n => n_inq n = true -> forall p, n_dq n = Some (QIno p) -> is_ino (fset (lc_node s) i o' p) = true
   | None => True end) ->
  Inv s'.
Proof.
  intros I Nd Ns Nx G L Lz T Tz Q Qz Qa O1 O2. set (o := lc_node s i) in *.
  assert (Ni : lc_node s' i = o') by (rewrite Nd; apply fset_same).
  assert (No : forall j, j <> i -> lc_node s' j = lc_node s j) by (intros j N; rewrite Nd; now apply fset_other).
  assert (Sl : forall c x, slot_of (lc_hm s' c) x = slot_of (lc_hm s c) x) by (intros; apply slot_same, Ns).
  constructor.
  - intros c. rewrite Ns. apply I.
  - intros c. apply L.
  - intros c. destruct (L c) as (D & N & M). rewrite Lz, (I_sz _ _ I).
    pose proof (del_len (fun _ => true) i _ _ N M) as A1.
    pose proof (del_len (fun _ => true) i _ _ (I_lnd _ _ I c) (Inv_inL s i c I)) as A2.
    rewrite !filter_true, !andb_true_r in *. rewrite D in A1. fold o in A2. lia.
  - intros c j. destruct (L c) as (D & N & M). destruct (Z.eq_dec j i) as [->|Nj].
    + rewrite M, Ni. unfold inL. destruct o' as [n|]; [rewrite cls_eqb_eq; split; [eauto|intros (m & E & K); congruence]|].
      split; [discriminate|intros (m & E & _); discriminate].
    + rewrite (del_In_other _ _ _ _ D Nj), No by easy. apply I.
  - intros c k. apply T.
  - intros c k j. destruct (T c k) as (D & N & M). destruct (Z.eq_dec j i) as [->|Nj].
    + rewrite M, Ni. unfold inC. destruct o' as [n|].
      * rewrite !andb_true_iff, cls_eqb_eq, Z.eqb_eq. split.
        -- intros [[K Mp] S]. exists n. rewrite Sl. auto.
        -- intros (m & E & K & Mp & S). assert (m = n) by congruence. subst m. rewrite Sl in S. auto.
      * split; [discriminate|intros (m & E & _); discriminate].
    + rewrite (del_In_other _ _ _ _ D Nj), No by easy. rewrite (I_ch _ _ I).
      split; intros (m & E & K & Mp & S); exists m; rewrite ?Sl in *; auto.
  - intros c. destruct (L c) as (D & N & M). rewrite Tz, (I_size _ _ I).
    pose proof (del_len (mapped_in s') i _ _ N M) as A1.
    pose proof (del_len (mapped_in s) i _ _ (I_lnd _ _ I c) (Inv_inL s i c I)) as A2.
    rewrite D in A1.
    rewrite (filter_ext_in (mapped_in s') (mapped_in s) (del i (hq_lru (lc_hm s c)))) in A1.
    2:{ intros a Ha. apply In_del in Ha as [_ Ha]. unfold mapped_in. now rewrite No. }
    assert (B1 : inL o' c && mapped_in s' i = inM o' c).
    { unfold mapped_in. rewrite Ni. destruct o'; reflexivity. }
    assert (B2 : inL (lc_node s i) c && mapped_in s i = inM (lc_node s i) c).
    { unfold mapped_in. destruct (lc_node s i); reflexivity. }
    rewrite B1 in A1. rewrite B2 in A2. fold o in A2. lia.
  - intros j n E. destruct (Z.eq_dec j i) as [->|Nj].
    + apply G. congruence.
    + rewrite No in E by easy. destruct (I_node _ _ I _ _ E) as [a b c d e f g h]. constructor; auto. lia.
  - intros q. apply Q.
  - intros q j. destruct (Q q) as (D & N & M). destruct (Z.eq_dec j i) as [->|Nj].
    + rewrite M, Ni. unfold inQ. destruct o' as [n|].
      * rewrite andb_true_iff. split.
        -- intros [Iq Dq]. exists n. destruct (n_dq n) as [q'|]; [|discriminate]. apply qid_eqb_eq in Dq. now subst.
        -- intros (m & E & Iq & Dq). assert (m = n) by congruence. subst m. rewrite Dq. split; [easy|]. now apply qid_eqb_eq.
      * split; [discriminate|intros (m & E & _); discriminate].
    + rewrite (del_In_other _ _ _ _ D Nj), No by easy. apply I.
  - intros q. destruct (Q q) as (D & N & M). rewrite Qz, (I_qsz _ _ I).
    pose proof (del_len (fun _ => true) i _ _ N M) as A1.
    pose proof (del_len (fun _ => true) i _ _ (I_qnd _ _ I q) (Inv_inQ s i q I)) as A2.
    rewrite !filter_true, !andb_true_r in *. rewrite D in A1. fold o in A2. lia.
  - intros q. destruct (Q q) as (D & N & M). rewrite Qa, (I_qac _ _ I).
    pose proof (del_sum (sz_in s') i _ _ N M) as A1.
    pose proof (del_sum (sz_in s) i _ _ (I_qnd _ _ I q) (Inv_inQ s i q I)) as A2.
    rewrite D in A1. rewrite (map_ext_in (sz_in s') (sz_in s) (del i (dq_l (lc_q s q)))) in A1.
    2:{ intros a Ha. apply In_del in Ha as [_ Ha]. unfold sz_in. now rewrite No. }
    assert (B1 : (if inQ o' q then sz_in s' i else 0) = szQ o' q).
    { unfold szQ, sz_in. now rewrite Ni. }
    rewrite B1 in A1. change (if inQ (lc_node s i) q then sz_in s i else 0) with (szQ o q) in A2. lia.
  - intros p j Hj. destruct (Q (QIno p)) as (D & N & M).
    assert (W : is_ino (fset (lc_node s) i o' p) = true -> exists n, lc_node s' p = Some n /\ is_inode n = true).
    { rewrite <- Nd. destruct (lc_node s' p) as [n|]; [eauto|discriminate]. }
    apply W. destruct (Z.eq_dec j i) as [->|Nj].
    + apply M in Hj. unfold inQ in Hj. destruct o' as [n|]; [|discriminate]. apply andb_true_iff in Hj as [H1 H2].
      destruct (n_dq n) as [q'|] eqn:Dq; [|discriminate]. apply qid_eqb_eq in H2. subst q'. now apply O2.
    + apply (del_In_other _ _ _ _ D Nj) in Hj. destruct (Z.eq_dec p i) as [->|Np].
      * rewrite fset_same. destruct O1 as [O1|[O1|O1]]; [easy| |].
        -- apply (I_qown _ _ I) in Hj as (n & E & Ino). fold o in E. rewrite E in O1. cbn in O1. congruence.
        -- rewrite O1 in Hj. easy.
      * rewrite fset_other by easy. apply (I_qown _ _ I) in Hj as (n & E & Ino). now rewrite E.
Qed.

(* lists which do not change *)
Lemma relL s i c o' : Inv s -> inL o' c = inL (lc_node s i) c -> rel i (hq_lru (lc_hm s c)) (hq_lru (lc_hm s c)) (inL o' c).
Proof. intros I E. repeat split; [apply I|rewrite E; now apply Inv_inL|rewrite E; now apply Inv_inL]. Qed.
Lemma relC s i c k o' : Inv s -> inC (lc_hm s c) o' c k = inC (lc_hm s c) (lc_node s i) c k ->
  rel i (hq_tbl (lc_hm s c) k) (hq_tbl (lc_hm s c) k) (inC (lc_hm s c) o' c k).
Proof. intros I E. repeat split; [apply I|rewrite E; now apply Inv_inC|rewrite E; now apply Inv_inC]. Qed.
Lemma relQ s i q o' : Inv s -> inQ o' q = inQ (lc_node s i) q -> rel i (dq_l (lc_q s q)) (dq_l (lc_q s q)) (inQ o' q).
Proof. intros I E. repeat split; [apply I|rewrite E; now apply Inv_inQ|rewrite E; now apply Inv_inQ]. Qed.
(* an element leaves a list *)
Lemma rel_del i l : NoDup l -> rel i l (del i l) false.
Proof.
  intros N. repeat split; [|now apply NoDup_del|rewrite In_del; intros [_ ?]; easy|discriminate].
  apply del_notin. rewrite In_del. intros [_ ?]. easy.
Qed.
Lemma del_idem i l : del i (del i l) = del i l.
Proof. apply del_notin. rewrite In_del. intros [_ ?]. easy. Qed.
(* an element joins a list *)
Lemma rel_cons i l : NoDup l -> ~ In i l -> rel i l (i :: l) true.
Proof.
  intros N H. repeat split; [|now constructor|now left].
  cbn [del filter]. rewrite Z.eqb_refl. reflexivity.
Qed.
Lemma NoDup_snoc (i : Z) l : NoDup l -> ~ In i l -> NoDup (l ++ [i]).
Proof.
  intros N H. apply (Permutation_NoDup (l := i :: l)); [apply Permutation_cons_append|now constructor].
Qed.
Lemma rel_snoc i l : NoDup l -> ~ In i l -> rel i l (l ++ [i]) true.
Proof.
  intros N H. repeat split; [|now apply NoDup_snoc|intros _; apply in_or_app; right; now left].
  rewrite del_app. cbn [del filter]. rewrite Z.eqb_refl. cbn. now rewrite app_nil_r.
Qed.

(* --- an attribute of an object changes ---------------------------------------------------- *)
Lemma Inv_attr s i n n' : Inv s -> lc_node s i = Some n ->
  n_key n' = n_key n -> n_hash n' = n_hash n -> n_mapped n' = n_mapped n -> n_inq n' = n_inq n -> n_sz n' = n_sz n ->
  (n_inq n = true -> n_dq n' = n_dq n) ->
  good s i n' -> Inv (put_node s i (Some n')).
Proof.
  intros I E K H M Q Z D G.
  assert (EL : forall c, inL (Some n') c = inL (lc_node s i) c) by (intros; rewrite E; unfold inL, ncls; now rewrite K).
  assert (EM : forall c, inM (Some n') c = inM (lc_node s i) c) by (intros; rewrite E; unfold inM, ncls; now rewrite K, M).
  assert (EQ : forall q, inQ (Some n') q = inQ (lc_node s i) q).
  { intros q. rewrite E. unfold inQ. rewrite Q. destruct (n_inq n); [|easy]. now rewrite D. }
  assert (EC : forall c k, inC (lc_hm s c) (Some n') c k = inC (lc_hm s c) (lc_node s i) c k).
  { intros c k. rewrite E. unfold inC, ncls. now rewrite K, H, M. }
  assert (EZ : forall q, szQ (Some n') q = szQ (lc_node s i) q).
  { intros q. unfold szQ. rewrite EQ, E, Z. reflexivity. }
  assert (EI : is_ino (Some n') = is_ino (lc_node s i)) by (rewrite E; unfold is_ino, is_inode; now rewrite K).
  apply (Inv_put s _ i (Some n') I); try reflexivity; cbn [put_node lc_hm lc_q lc_next lc_node]; intros.
  - assert (n' = n0) by congruence. subst n0. destruct G as [a b c d e f g h]. constructor; auto.
  - now apply relL.
  - rewrite EL. lia.
  - now apply relC.
  - rewrite EM. lia.
  - now apply relQ.
  - rewrite EQ. lia.
  - rewrite EZ. lia.
  - rewrite EI. destruct (is_ino (lc_node s i)); auto.
  - match goal with A : n_inq n' = true, B : n_dq n' = Some _ |- _ => rename A into Iq, B into Dq end.
    rewrite Q in Iq. rewrite (D Iq) in Dq.
    assert (W : In i (dq_l (lc_q s (QIno p)))) by (apply (I_q _ _ I); eauto).
    apply (I_qown _ _ I) in W as (m & Em & Im).
    destruct (Z.eq_dec p i) as [->|Np]; [rewrite fset_same|rewrite fset_other by easy; now rewrite Em].
    rewrite EI, Em. exact Im.
Qed.

(* --- queues -------------------------------------------------------------------------------- *)
Definition q_live (s : lcache) (q : qid) : Prop := match q with QIno p => is_ino (lc_node s p) = true | _ => True end.
Lemma q_alive_ok s q : q_live s q -> q_alive q s = COk s tt.
Proof.
  destruct q; cbn [q_alive q_live]; try reflexivity. unfold is_ino. destruct (lc_node s i) eqn:E; [|discriminate].
  intros _. rewrite (bind_ok _ _ _ _ _ (node_ok _ _ _ E)). reflexivity.
Qed.
Definition enq (s : lcache) (i : Z) (n : node) (q : qid) : lcache :=
  put_node (put_q s q (mkDq (dq_l (lc_q s q) ++ [i]) (dq_sz (lc_q s q) + 1) (dq_accum (lc_q s q) + n_sz n))) i (Some (set_inq n true)).
Definition deq (s : lcache) (i : Z) (n : node) (q : qid) : lcache :=
  put_node (put_q s q (mkDq (del i (dq_l (lc_q s q))) (dq_sz (lc_q s q) - 1) (dq_accum (lc_q s q) - n_sz n))) i (Some (set_inq n false)).

Lemma append_ok s i n q : lc_node s i = Some n -> q_live s q -> dirtyq_append q i s = COk (enq s i n q) tt.
Proof.
  intros E L. unfold dirtyq_append. rewrite (bind_ok _ _ _ _ _ (q_alive_ok _ _ L)).
  rewrite (bind_ok _ _ _ _ _ (node_ok _ _ _ E)). unfold cbind at 1 2, cget, cput. now rewrite (upd_ok _ _ _ n).
Qed.
Lemma remove_ok s i n q : Inv s -> lc_node s i = Some n -> n_inq n = true -> n_dq n = Some q ->
  dirtyq_remove q i s = COk (deq s i n q) tt.
Proof.
  intros I E Q D. assert (M : In i (dq_l (lc_q s q))) by (apply (I_q _ _ I); eauto).
  unfold dirtyq_remove. rewrite (bind_ok _ _ _ _ _ (q_alive_ok s q ltac:(destruct q; cbn; auto; unfold is_ino; destruct (I_qown _ _ I _ _ M) as (m & -> & ->); reflexivity))).
  rewrite (bind_ok _ _ _ _ _ (node_ok _ _ _ E)). rewrite (bind_ok _ _ _ _ _ (assert_ok _ _ Q)).
  unfold cbind at 1, cget.
  assert (A : n_sz n <=? dq_accum (lc_q s q) = true).
  { apply Z.leb_le. rewrite (I_qac _ _ I). pose proof (del_sum (sz_in s) i _ true (I_qnd _ _ I q) (conj (fun _ => eq_refl) (fun _ => M))) as S.
    cbn beta iota in S. assert (Z1 : sz_in s i = n_sz n) by (unfold sz_in; now rewrite E). rewrite Z1 in S.
    assert (P : forall l, 0 <= zsum (map (sz_in s) l)).
    { induction l as [|a t IH]; cbn [map]; [cbn; lia|]. rewrite zsum_cons. unfold sz_in at 1.
      destruct (lc_node s a) eqn:Ea; [pose proof (g_sz _ _ _ _ (I_node _ _ I _ _ Ea)); lia|lia]. }
    specialize (P (del i (dq_l (lc_q s q)))). lia. }
  rewrite (bind_ok _ _ _ _ _ (assert_ok _ _ A)). rewrite (bind_ok _ _ _ _ _ (assert_ok _ _ (proj2 (has_In _ _) M))).
  unfold cbind at 1, cput. now rewrite (upd_ok _ _ _ n).
Qed.
Lemma qset_case {A} (f : qid -> A) q x q' : qset f q x q' = if qid_eqb q q' then x else f q'.
Proof. reflexivity. Qed.
Lemma Inv_enq s i n q : Inv s -> lc_node s i = Some n -> n_inq n = false -> n_dq n = Some q -> q_live s q -> Inv (enq s i n q).
Proof.
  intros I E F D L. pose proof (I_node _ _ I _ _ E) as G. set (n' := set_inq n true).
  assert (EQ : forall q', inQ (lc_node s i) q' = false) by (intros; rewrite E; unfold inQ; now rewrite F).
  assert (EQ' : forall q', inQ (Some n') q' = qid_eqb q q') by (intros; cbn; now rewrite D).
  assert (Ni : ~ In i (dq_l (lc_q s q))) by (intros H; apply (Inv_inQ _ _ _ I) in H; now rewrite EQ in H).
  apply (Inv_put s _ i (Some n') I); try reflexivity; unfold enq; cbn [put_node put_q lc_hm lc_q lc_next lc_node]; intros.
  - assert (n' = n0) by congruence. subst n0. destruct G as [a b c d e f g h]. constructor; auto.
  - apply relL; [easy|now rewrite E].
  - rewrite E. change (inL (Some n') c) with (inL (Some n) c). lia.
  - apply relC; [easy|now rewrite E].
  - rewrite E. change (inM (Some n') c) with (inM (Some n) c). lia.
  - rewrite qset_case. fold n'. rewrite EQ'. destruct (qid_eqb q q0) eqn:Eq.
    + apply qid_eqb_eq in Eq. subst q0. cbn [dq_l]. apply rel_snoc; [apply I|easy].
    + rewrite <- EQ' in Eq. rewrite <- Eq. apply relQ; [easy|]. now rewrite Eq, EQ.
  - rewrite qset_case. fold n'. rewrite EQ', EQ. destruct (qid_eqb q q0) eqn:Eq; [apply qid_eqb_eq in Eq; subst q0|]; cbn; lia.
  - rewrite qset_case. fold n'. unfold szQ. rewrite EQ', EQ. destruct (qid_eqb q q0) eqn:Eq; [apply qid_eqb_eq in Eq; subst q0|]; cbn [dq_accum]; [change (n_sz n') with (n_sz n)|]; lia.
  - fold n'. change (is_ino (Some n')) with (is_ino (Some n)). rewrite E. destruct (is_ino (Some n)); auto.
  - match goal with B : n_dq n' = Some _ |- _ => rename B into Dq end. change (n_dq n') with (n_dq n) in Dq.
    rewrite D in Dq. assert (q = QIno p) by congruence. subst q.
    cbn [q_live] in L. destruct (Z.eq_dec p i) as [->|Np]; [rewrite fset_same|now rewrite fset_other].
    rewrite E in L. exact L.
Qed.
Lemma Inv_deq s i n q : Inv s -> lc_node s i = Some n -> n_inq n = true -> n_dq n = Some q -> Inv (deq s i n q).
Proof.
  intros I E F D. pose proof (I_node _ _ I _ _ E) as G. set (n' := set_inq n false).
  assert (EQ : forall q', inQ (lc_node s i) q' = qid_eqb q q') by (intros; rewrite E; unfold inQ; now rewrite F, D).
  assert (EQ' : forall q', inQ (Some n') q' = false) by reflexivity.
  apply (Inv_put s _ i (Some n') I); try reflexivity; unfold deq; cbn [put_node put_q lc_hm lc_q lc_next lc_node]; intros.
  - assert (n' = n0) by congruence. subst n0. destruct G as [a b c d e f g h]. constructor; auto.
  - apply relL; [easy|now rewrite E].
  - rewrite E. change (inL (Some n') c) with (inL (Some n) c). lia.
  - apply relC; [easy|now rewrite E].
  - rewrite E. change (inM (Some n') c) with (inM (Some n) c). lia.
  - rewrite qset_case. fold n'. destruct (qid_eqb q q0) eqn:Eq.
    + apply qid_eqb_eq in Eq. subst q0. cbn [dq_l]. rewrite EQ'. apply rel_del, I.
    + apply relQ; [easy|]. now rewrite EQ', EQ.
  - rewrite qset_case. fold n'. rewrite EQ', EQ. destruct (qid_eqb q q0) eqn:Eq; [apply qid_eqb_eq in Eq; subst q0|]; cbn; lia.
  - rewrite qset_case. fold n'. unfold szQ. rewrite EQ', EQ, E. destruct (qid_eqb q q0) eqn:Eq; [apply qid_eqb_eq in Eq; subst q0|]; cbn [dq_accum]; lia.
  - fold n'. change (is_ino (Some n')) with (is_ino (Some n)). rewrite E. destruct (is_ino (Some n)); auto.
  - discriminate.
Qed.

(* lni_undirtify *)
Definition undirt (s : lcache) (i : Z) (n : node) : lcache :=
  if n_inq n then match n_dq n with Some q => deq s i n q | None => s end else s.
Lemma undirtify_ok s i n : Inv s -> lc_node s i = Some n -> lni_undirtify i s = COk (undirt s i n) tt /\ Inv (undirt s i n).
Proof.
  intros I E. unfold lni_undirtify, undirt. rewrite (bind_ok _ _ _ _ _ (node_ok _ _ _ E)).
  destruct (n_inq n) eqn:F; [|auto]. unfold dqe_dequeue. rewrite (bind_ok _ _ _ _ _ (node_ok _ _ _ E)). rewrite F.
  destruct (g_dq _ _ _ _ (I_node _ _ I _ _ E)) as (q & D & _). rewrite D.
  split; [now apply remove_ok|now apply Inv_deq].
Qed.
Lemma undirt_node s i n j : lc_node s i = Some n -> lc_node (undirt s i n) j = if j =? i then Some (if n_inq n then match n_dq n with Some _ => set_inq n false | None => n end else n) else lc_node s j.
Proof.
  intros E. unfold undirt. destruct (n_inq n), (n_dq n) as [q|]; cbn [deq put_node put_q lc_node]; unfold fset;
    destruct (Z.eqb_spec j i) as [->|]; auto.
Qed.

(* --- the observable change of a call --------------------------------------------------------- *)
(* all but the objects, the lists of queues and the LRU lists is the same *)
Definition frame (s s' : lcache) : Prop :=
  (forall c, hq_nslots (lc_hm s' c) = hq_nslots (lc_hm s c)) /\ lc_next s' = lc_next s.
Lemma frame_refl s : frame s s.
Proof. split; auto. Qed.
Lemma frame_trans a b c : frame a b -> frame b c -> frame a c.
Proof. intros [A B] [A' B']. split; [intros; now rewrite A'|congruence]. Qed.

Lemma fset_id (f : Z -> option node) i j : fset f i (f i) j = f j.
Proof. unfold fset. destruct (Z.eqb_spec j i); now subst. Qed.
Lemma fset_fset (f : Z -> option node) i x y j : fset (fset f i x) i y j = fset f i y j.
Proof. unfold fset. now destruct (j =? i). Qed.
Lemma fset_ext (f g : Z -> option node) i x j : (forall j, f j = g j) -> fset f i x j = fset g i x j.
Proof. intros E. unfold fset. destruct (j =? i); auto. Qed.
Lemma set_mapped_id n : n_mapped n = false -> set_mapped n false = n.
Proof. destruct n as [a1 a2 a3 a4 a5 a6 a7 a8 a9 a10 a11 a12]. cbn. now intros ->. Qed.
Lemma set_inq_id n b : n_inq n = b -> set_inq n b = n.
Proof. destruct n as [a1 a2 a3 a4 a5 a6 a7 a8 a9 a10 a11 a12]. cbn. now intros ->. Qed.

Lemma undirtify_eff s i n : Inv s -> lc_node s i = Some n ->
  exists s', lni_undirtify i s = COk s' tt /\ Inv s' /\ frame s s' /\
    (forall j, lc_node s' j = fset (lc_node s) i (Some (set_inq n false)) j) /\
    (forall c, lc_hm s' c = lc_hm s c) /\ (forall q, dq_l (lc_q s' q) = del i (dq_l (lc_q s q))).
Proof.
  intros I E. destruct (undirtify_ok s i n I E) as [R I']. exists (undirt s i n). split; [easy|]. split; [easy|].
  unfold undirt in *. destruct (g_dq _ _ _ _ (I_node _ _ I _ _ E)) as (q & D & _). rewrite D in *.
  destruct (n_inq n) eqn:F.
  - split; [split; reflexivity|]. split; [reflexivity|]. split; [reflexivity|]. intros q'. unfold deq. cbn [put_node put_q lc_q].
    rewrite qset_case. destruct (qid_eqb q q') eqn:Eq; [apply qid_eqb_eq in Eq; now subst|].
    symmetry. apply del_notin. rewrite (Inv_inQ _ _ _ I), E. unfold inQ. now rewrite D, Eq, andb_false_r.
  - split; [apply frame_refl|]. split; [intros j; rewrite (set_inq_id _ _ F), <- E; symmetry; apply fset_id|].
    split; [reflexivity|]. intros q'. symmetry. apply del_notin. rewrite (Inv_inQ _ _ _ I), E. unfold inQ. now rewrite F.
Qed.

Lemma unmap_eff s c i n : Inv s -> lc_node s i = Some n -> ncls n = c ->
  exists s', hmapq_unmap c i s = COk s' tt /\ Inv s' /\ frame s s' /\
    (forall j, lc_node s' j = fset (lc_node s) i (Some (set_mapped n false)) j) /\
    (forall c', hq_lru (lc_hm s' c') = hq_lru (lc_hm s c')) /\ (forall q, lc_q s' q = lc_q s q).
Proof.
  intros I E K. unfold hmapq_unmap. rewrite (bind_ok _ _ _ _ _ (node_ok _ _ _ E)). destruct (n_mapped n) eqn:M.
  2:{ exists s. split; [reflexivity|]. split; [easy|]. split; [apply frame_refl|]. split; [|auto].
      intros j. rewrite (set_mapped_id _ M), <- E. symmetry. apply fset_id. }
  pose proof (I_node _ _ I _ _ E) as G. pose proof (In_chain _ _ _ _ I E M) as Hc. rewrite K in Hc.
  unfold hunmap. unfold cbind at 1.
  rewrite (bind_ok _ _ _ _ _ (chain_remove_ok _ _ _ _ E Hc)).
  rewrite (upd_ok i _ _ n) by exact E. unfold add_size, cbind, cget, cput.
  eexists. split; [reflexivity|].
  set (n' := set_mapped n false). set (hs := n_hash n).
  assert (EL : forall c', inL (Some n') c' = inL (lc_node s i) c') by (intros; rewrite E; reflexivity).
  assert (EM : forall c', inM (Some n') c' = false) by (intros; cbn; apply andb_false_r).
  assert (EQ : forall q, inQ (Some n') q = inQ (lc_node s i) q) by (intros; rewrite E; reflexivity).
  assert (EC : forall h c' k, inC h (Some n') c' k = false) by (intros; cbn; now rewrite andb_false_r).
  assert (EZ : forall q, szQ (Some n') q = szQ (lc_node s i) q) by (intros; rewrite E; reflexivity).
  assert (EI : is_ino (Some n') = is_ino (lc_node s i)) by (rewrite E; reflexivity).
  assert (EM0 : forall c', inM (lc_node s i) c' = cls_eqb c c').
  { intros c'. rewrite E. unfold inM. now rewrite M, andb_true_r, K. }
  match goal with |- _ ?x /\ _ => set (s3 := x) end.
  assert (HL : forall c', hq_lru (lc_hm s3 c') = hq_lru (lc_hm s c')).
  { intros c'. unfold s3. cbn [put_hm put_node lc_hm]. destruct (cls_dec c c') as [<-|Nc]; rewrite ?cset_same, ?cset_other by easy; reflexivity. }
  split; [|split; [split; [|reflexivity]|split; [reflexivity|split; [exact HL|reflexivity]]]].
  - apply (Inv_put s _ i (Some n') I); try reflexivity; intros;
      try (unfold s3; cbn [put_hm put_node lc_hm lc_q lc_next lc_node]).
    + destruct (cls_dec c c0) as [<-|Nc]; rewrite ?cset_same, ?cset_other by easy; reflexivity.
    + match goal with A : Some n' = Some ?m |- _ => assert (n' = m) by congruence; subst m end.
      destruct G as [a b e d0 e0 f g h]. constructor; auto.
    + replace (hq_lru (cset _ _ _ c0)) with (hq_lru (lc_hm s3 c0)) by reflexivity. rewrite HL. now apply relL.
    + rewrite EL. destruct (cls_dec c c0) as [<-|Nc]; rewrite ?cset_same, ?cset_other by easy; cbn [set_size set_chain hq_sz]; lia.
    + destruct (cls_dec c c0) as [<-|Nc].
      * rewrite !cset_same. cbn [set_size set_chain hq_tbl]. destruct (Z.eq_dec k (slot_of (lc_hm s c) hs)) as [->|Nk].
        -- rewrite fset_same, EC. apply rel_del, I.
        -- rewrite fset_other by easy. apply relC; [easy|]. rewrite EC, E. unfold inC. fold hs.
           destruct (Z.eqb_spec (slot_of (lc_hm s c) hs) k); [congruence|now rewrite andb_false_r].
      * rewrite !cset_other by easy. apply relC; [easy|]. rewrite EC, E. unfold inC. rewrite K.
        destruct (cls_eqb c c0) eqn:Ec; [apply cls_eqb_eq in Ec; easy|reflexivity].
    + rewrite EM, EM0. destruct (cls_dec c c0) as [<-|Nc].
      * rewrite !cset_same. cbn [set_size set_chain hq_size]. replace (cls_eqb c c) with true by (destruct c; reflexivity). cbn; lia.
      * rewrite !cset_other by easy. destruct (cls_eqb c c0) eqn:Ec; [apply cls_eqb_eq in Ec; easy|cbn; lia].
    + now apply relQ.
    + rewrite EQ. lia.
    + rewrite EZ. lia.
    + rewrite EI. destruct (is_ino (lc_node s i)); auto.
    + match goal with A : n_inq n' = true, B : n_dq n' = Some _ |- _ => rename A into Iq, B into Dq end.
      assert (W : In i (dq_l (lc_q s (QIno p)))) by (apply (I_q _ _ I); eauto).
      apply (I_qown _ _ I) in W as (m & Em & Im).
      destruct (Z.eq_dec p i) as [->|Np]; [rewrite fset_same|rewrite fset_other by easy; now rewrite Em].
      rewrite EI, Em. exact Im.
  - intros c'. unfold s3. cbn [put_hm put_node lc_hm]. destruct (cls_dec c c') as [<-|Nc]; rewrite ?cset_same, ?cset_other by easy; reflexivity.
Qed.

(* an object which is in no table and in no queue is deleted *)
Lemma drop_eff s c i n : Inv s -> lc_node s i = Some n -> ncls n = c -> n_mapped n = false -> n_inq n = false -> n_ref n = 0 ->
  (is_inode n = true -> dq_l (lc_q s (QIno i)) = []) ->
  exists s', (lru_remove c i ;;; (match c with CV => upd i (fun n => set_forgot n false) | CU => cret tt end) ;;; del_node i) s = COk s' tt /\
    Inv s' /\ frame s s' /\ (forall j, lc_node s' j = fset (lc_node s) i None j) /\
    (forall c', hq_lru (lc_hm s' c') = del i (hq_lru (lc_hm s c'))) /\ (forall q, lc_q s' q = lc_q s q).
Proof.
  intros I E K M Q R Own. pose proof (I_node _ _ I _ _ E) as G. pose proof (In_lru _ _ _ _ I E) as HL. rewrite K in HL.
  rewrite (bind_ok _ _ _ _ _ (lru_remove_ok _ _ _ HL)).
  set (s1 := put_hm s c (set_lru (lc_hm s c) (del i (hq_lru (lc_hm s c))) (hq_sz (lc_hm s c) - 1))).
  set (n1 := match c with CV => set_forgot n false | CU => n end).
  set (s2 := match c with CV => put_node s1 i (Some n1) | CU => s1 end).
  assert (R2 : (match c with CV => upd i (fun n => set_forgot n false) | CU => cret tt end) s1 = COk s2 tt).
  { unfold s2, n1. destruct c; [|reflexivity]. now rewrite (upd_ok i _ s1 n). }
  rewrite (bind_ok _ _ _ _ _ R2).
  assert (E2 : lc_node s2 i = Some n1).
  { unfold s2, n1. destruct c; [cbn [put_node lc_node]; apply fset_same|exact E]. }
  assert (N2 : forall j, j <> i -> lc_node s2 j = lc_node s j).
  { intros j Nj. unfold s2. destruct c; [|reflexivity]. cbn [put_node lc_node]. now rewrite fset_other. }
  assert (Q2 : lc_q s2 = lc_q s) by (unfold s2; destruct c; reflexivity).
  assert (H2 : lc_hm s2 = lc_hm s1) by (unfold s2; destruct c; reflexivity).
  assert (X2 : lc_next s2 = lc_next s) by (unfold s2; destruct c; reflexivity).
  assert (In1 : is_inode n1 = is_inode n) by (unfold n1; destruct c; reflexivity).
  assert (Own' : is_inode n = true -> lc_q s (QIno i) = mkDq [] 0 0).
  { intros Hi. specialize (Own Hi). pose proof (I_qsz _ _ I (QIno i)) as A. pose proof (I_qac _ _ I (QIno i)) as B.
    rewrite Own in A, B. cbn in A, B. destruct (lc_q s (QIno i)) as [l z a]. cbn in *. now subst. }
  unfold del_node. rewrite (bind_ok _ _ _ _ _ (node_ok _ _ _ E2)). unfold cbind at 1, cget. rewrite In1, Q2.
  assert (A1 : (if is_inode n then cassert ((dq_sz (lc_q s (QIno i)) =? 0) && (dq_accum (lc_q s (QIno i)) =? 0) && (0 <=? n_nopen n1)) else cret tt) s2 = COk s2 tt).
  { destruct (is_inode n) eqn:Hi; [|reflexivity]. rewrite Own' by easy. cbn [dq_sz dq_accum]. apply assert_ok.
    replace (n_nopen n1) with (n_nopen n) by (unfold n1; destruct c; reflexivity).
    pose proof (g_nopen _ _ _ _ G). rewrite Z.eqb_refl. cbn [andb]. now apply Z.leb_le. }
  rewrite (bind_ok _ _ _ _ _ A1).
  assert (A2 : sanitize i s2 = COk s2 tt).
  { apply (sanitize_ok _ _ _ E2). replace (n_ref n1) with (n_ref n) by (unfold n1; destruct c; reflexivity). lia. }
  rewrite (bind_ok _ _ _ _ _ A2).
  assert (A3 : n_ref n1 =? 0 = true) by (apply Z.eqb_eq; unfold n1; destruct c; assumption).
  rewrite (bind_ok _ _ _ _ _ (assert_ok _ _ A3)).
  assert (A4 : (0 <? n_sz n1) && negb (n_inq n1) = true).
  { pose proof (g_sz _ _ _ _ G). apply andb_true_iff. split; [apply Z.ltb_lt|]; unfold n1; destruct c; cbn; rewrite ?Q; auto. }
  rewrite (bind_ok _ _ _ _ _ (assert_ok _ _ A4)). unfold cput. eexists. split; [reflexivity|].
  set (s3 := put_node _ i None).
  assert (N3 : forall j, lc_node s3 j = fset (lc_node s) i None j).
  { intros j. unfold s3. cbn [put_node lc_node]. destruct (Z.eq_dec j i) as [->|Nj]; [now rewrite !fset_same|].
    rewrite !fset_other by easy. destruct (is_inode n); cbn [put_q lc_node]; now apply N2. }
  assert (Q3 : forall q, lc_q s3 q = lc_q s q).
  { intros q. unfold s3. cbn [put_node lc_q]. destruct (is_inode n); [|now rewrite Q2]. cbn [put_q lc_q]. rewrite qset_case, Q2.
    destruct (qid_eqb (QIno i) q) eqn:Eq; [|reflexivity]. apply qid_eqb_eq in Eq. subst q. now rewrite Own'. }
  assert (H3 : lc_hm s3 = lc_hm s1) by (unfold s3; cbn [put_node lc_hm]; destruct (is_inode n); exact H2).
  assert (X3 : lc_next s3 = lc_next s) by (unfold s3; cbn [put_node lc_next]; destruct (is_inode n); exact X2).
  assert (L3 : forall c', hq_lru (lc_hm s3 c') = del i (hq_lru (lc_hm s c'))).
  { intros c'. rewrite H3. unfold s1. cbn [put_hm lc_hm]. destruct (cls_dec c c') as [<-|Nc]; [now rewrite cset_same|].
    rewrite cset_other by easy. symmetry. apply del_notin. rewrite (Inv_inL _ _ _ I), E. unfold inL. rewrite K.
    intros X. apply cls_eqb_eq in X. easy. }
  assert (F3 : frame s s3).
  { split; [|exact X3]. intros c'. rewrite H3. unfold s1. cbn [put_hm lc_hm].
    destruct (cls_dec c c') as [<-|Nc]; [now rewrite cset_same|now rewrite cset_other]. }
  split; [|auto]. clearbody s3. apply (Inv_put s s3 i None I); auto; try apply F3; try discriminate.
  - lia.
  - intros c'. rewrite L3. apply rel_del, I.
  - intros c'. rewrite H3. unfold s1. cbn [put_hm lc_hm inL]. rewrite E. unfold inL. rewrite K.
    destruct (cls_dec c c') as [<-|Nc]; [rewrite cset_same|rewrite cset_other by easy].
    + replace (cls_eqb c c) with true by (destruct c; reflexivity). cbn [set_lru hq_sz b2z]. lia.
    + destruct (cls_eqb c c') eqn:Ec; [apply cls_eqb_eq in Ec; easy|cbn; lia].
  - intros c' k. replace (hq_tbl (lc_hm s3 c') k) with (hq_tbl (lc_hm s c') k).
    + apply relC; [easy|]. rewrite E. unfold inC. now rewrite M, andb_false_r.
    + rewrite H3. unfold s1. cbn [put_hm lc_hm]. destruct (cls_dec c c') as [<-|Nc]; [now rewrite cset_same|now rewrite cset_other].
  - intros c'. rewrite E. unfold inM. rewrite M, andb_false_r. cbn [b2z].
    replace (hq_size (lc_hm s3 c')) with (hq_size (lc_hm s c')); [lia|].
    rewrite H3. unfold s1. cbn [put_hm lc_hm]. destruct (cls_dec c c') as [<-|Nc]; [now rewrite cset_same|now rewrite cset_other].
  - intros q. rewrite Q3. apply relQ; [easy|]. rewrite E. unfold inQ. now rewrite Q.
  - intros q. rewrite Q3, E. unfold inQ. rewrite Q. cbn. lia.
  - intros q. rewrite Q3, E. unfold szQ, inQ. rewrite Q. cbn. lia.
  - rewrite E. cbn [is_ino]. destruct (is_inode n); auto.
Qed.

Lemma bind_assoc {A B D} (m : C A) (f : A -> C B) (g : B -> C D) s : cbind (cbind m f) g s = cbind m (fun a => cbind (f a) g) s.
Proof. unfold cbind. now destruct (m s). Qed.

Lemma own_del s i n q : Inv s -> lc_node s i = Some n -> n_inq n = false -> del i (dq_l (lc_q s q)) = dq_l (lc_q s q).
Proof.
  intros I E F. apply del_notin. rewrite (Inv_inQ _ _ _ I), E. unfold inQ. now rewrite F.
Qed.
Lemma evict_eff s c i n : Inv s -> lc_node s i = Some n -> ncls n = c -> n_ref n = 0 -> (c = CV -> n_inq n = false) ->
  (is_inode n = true -> dq_l (lc_q s (QIno i)) = []) ->
  exists s', lcache_evict c i s = COk s' tt /\ Inv s' /\ frame s s' /\
    (forall j, lc_node s' j = fset (lc_node s) i None j) /\
    (forall c', hq_lru (lc_hm s' c') = del i (hq_lru (lc_hm s c'))) /\
    (forall q, dq_l (lc_q s' q) = del i (dq_l (lc_q s q))).
Proof.
  intros I E K R Q Own. unfold lcache_evict.
  assert (X : exists s1, (match c with CU => lni_undirtify i | CV => cret tt end) s = COk s1 tt /\ Inv s1 /\ frame s s1 /\
    (forall j, lc_node s1 j = fset (lc_node s) i (Some (set_inq n false)) j) /\
    (forall c, lc_hm s1 c = lc_hm s c) /\ (forall q, dq_l (lc_q s1 q) = del i (dq_l (lc_q s q)))).
  { destruct c.
    - exists s. split; [reflexivity|]. split; [easy|]. split; [apply frame_refl|]. specialize (Q eq_refl).
      split; [intros j; rewrite (set_inq_id _ _ Q), <- E; symmetry; apply fset_id|]. split; [easy|].
      intros q. symmetry. now apply (own_del s i n).
    - now apply undirtify_eff. }
  destruct X as (s1 & R1 & I1 & F1 & N1 & H1 & Q1). rewrite (bind_ok _ _ _ _ _ R1).
  unfold hmapq_remove. rewrite bind_assoc.
  assert (E1 : lc_node s1 i = Some (set_inq n false)) by (rewrite N1; apply fset_same).
  destruct (unmap_eff s1 c i _ I1 E1 K) as (s2 & R2 & I2 & F2 & N2 & L2 & Q2). rewrite (bind_ok _ _ _ _ _ R2).
  assert (E2 : lc_node s2 i = Some (set_mapped (set_inq n false) false)) by (rewrite N2; apply fset_same).
  destruct (drop_eff s2 c i _ I2 E2 K eq_refl eq_refl R) as (s3 & R3 & I3 & F3 & N3 & L3 & Q3).
  { intros Hi. rewrite Q2, Q1, (Own Hi). reflexivity. }
  exists s3. split; [exact R3|]. split; [easy|]. split; [eapply frame_trans; [eapply frame_trans|]; eauto|]. split; [|split].
  - intros j. rewrite N3, (fset_ext _ _ i None j N2), fset_fset, (fset_ext _ _ i None j N1). apply fset_fset.
  - intros c'. rewrite L3, L2, H1. reflexivity.
  - intros q. rewrite Q3, Q2, Q1. reflexivity.
Qed.

(* --- marking objects dirty --------------------------------------------------------------------- *)
Definition now_in (i : Z) (q0 : qid) (s s' : lcache) : Prop :=
  forall q, dq_l (lc_q s' q) = if qid_eqb q0 q then dq_l (lc_q s q) ++ [i] else dq_l (lc_q s q).
Lemma enqueue_eff s i n q : Inv s -> lc_node s i = Some n -> n_inq n = false -> n_dq n = Some q -> q_live s q ->
  exists s', lni_dirtify i s = COk s' tt /\ Inv s' /\ frame s s' /\
    (forall j, lc_node s' j = fset (lc_node s) i (Some (set_inq n true)) j) /\
    (forall c, lc_hm s' c = lc_hm s c) /\ now_in i q s s'.
Proof.
  intros I E F D L. exists (enq s i n q). split.
  { unfold lni_dirtify. rewrite (bind_ok _ _ _ _ _ (node_ok _ _ _ E)), F. unfold dqe_enqueue.
    rewrite (bind_ok _ _ _ _ _ (node_ok _ _ _ E)), F, D. now apply append_ok. }
  split; [now apply Inv_enq|]. split; [split; reflexivity|]. split; [reflexivity|]. split; [reflexivity|].
  intros q'. unfold enq. cbn [put_node put_q lc_q]. rewrite qset_case. destruct (qid_eqb q q') eqn:Eq; [|reflexivity].
  apply qid_eqb_eq in Eq. now subst.
Qed.
Lemma setq_eff s i n q : Inv s -> lc_node s i = Some n -> n_inq n = false -> (ncls n = CU -> q = QUnis) ->
  dqe_setq i q s = COk (put_node s i (Some (set_dq n (Some q)))) tt /\ Inv (put_node s i (Some (set_dq n (Some q)))).
Proof.
  intros I E F U. split.
  - unfold dqe_setq. rewrite (bind_ok _ _ _ _ _ (node_ok _ _ _ E)). rewrite F. cbn [negb].
    rewrite (bind_ok _ _ _ _ _ (assert_ok true s eq_refl)). now rewrite (upd_ok i _ s n).
  - apply (Inv_attr s i n); auto. { congruence. }
    destruct (I_node _ _ I _ _ E) as [a b e d0 e0 f g h]. constructor; auto. cbn [set_dq n_dq]. eauto.
Qed.
Definition target (n : node) (ii : option Z) : option qid := match ii with Some p => Some (QIno p) | None => n_dq n end.
Lemma dirtify_eff s i n ii : Inv s -> lc_node s i = Some n -> n_inq n = false -> ncls n = CV ->
  (forall q, target n ii = Some q -> q_live s q) ->
  exists s' q, vni_dirtify i ii s = COk s' tt /\ Inv s' /\ frame s s' /\ target n ii = Some q /\
    (forall j, lc_node s' j = fset (lc_node s) i (Some (set_inq (set_dq n (Some q)) true)) j) /\
    (forall c, lc_hm s' c = lc_hm s c) /\ now_in i q s s'.
Proof.
  intros I E F K L. unfold vni_dirtify. rewrite (bind_ok _ _ _ _ _ (node_ok _ _ _ E)), F.
  destruct ii as [p|].
  - destruct (setq_eff s i n (QIno p) I E F) as [R1 I1]; [congruence|]. rewrite (bind_ok _ _ _ _ _ R1).
    set (s1 := put_node s i _) in *. set (n1 := set_dq n (Some (QIno p))).
    assert (E1 : lc_node s1 i = Some n1) by (unfold s1; cbn [put_node lc_node]; apply fset_same).
    assert (L1 : q_live s1 (QIno p)).
    { specialize (L _ eq_refl). cbn [q_live] in *. unfold s1. cbn [put_node lc_node].
      destruct (Z.eq_dec p i) as [->|Np]; [rewrite fset_same; rewrite E in L; exact L|now rewrite fset_other]. }
    destruct (enqueue_eff s1 i n1 (QIno p) I1 E1 F eq_refl L1) as (s2 & R2 & I2 & F2 & N2 & H2 & Q2).
    exists s2, (QIno p). split; [easy|]. split; [easy|]. split; [exact F2|]. split; [easy|]. split; [|split; [exact H2|exact Q2]].
    intros j. rewrite N2. unfold s1. cbn [put_node lc_node]. apply fset_fset.
  - rewrite (bind_ok _ _ s s tt) by reflexivity. destruct (g_dq _ _ _ _ (I_node _ _ I _ _ E)) as (q & D & _).
    assert (Sd : set_dq n (Some q) = n).
    { clear -D. destruct n as [a1 a2 a3 a4 a5 a6 a7 a8 a9 a10 a11 a12]. cbn in *. now rewrite <- D. }
    destruct (enqueue_eff s i n q I E F D (L q D)) as (s2 & R2 & I2 & F2 & N2 & H2 & Q2).
    exists s2, q. rewrite Sd. auto 10.
Qed.
Lemma dirtify_noop s i n ii : lc_node s i = Some n -> n_inq n = true -> vni_dirtify i ii s = COk s tt.
Proof. intros E F. unfold vni_dirtify. now rewrite (bind_ok _ _ _ _ _ (node_ok _ _ _ E)), F. Qed.
Lemma dirtifyu_noop s i n : lc_node s i = Some n -> n_inq n = true -> lni_dirtify i s = COk s tt.
Proof. intros E F. unfold lni_dirtify. now rewrite (bind_ok _ _ _ _ _ (node_ok _ _ _ E)), F. Qed.

Definition home (k : key) : qid := if key_ltype k =? LT_INODE then QIis else match k with KV _ => QVnis | KU _ => QUnis end.
Definition key_ok (k : key) : Prop :=
  key_wf k /\ match k with KV v => ltype_isvnode (va_ltype v) = true | KU _ => LT_BOOTREC <= key_ltype k <= LT_SPLEAF end.
Lemma dirtyq_by_ok k s : key_ok k -> dirtyq_by (key_ltype k) s = COk s (home k).
Proof.
  intros [W V]. unfold dirtyq_by, home. destruct (key_ltype k =? LT_INODE) eqn:E; [reflexivity|].
  destruct k as [v|u]; cbn [key_ltype] in *.
  - rewrite V. reflexivity.
  - unfold ltype_isvnode. set (t := ls_ltype _) in *. unfold LT_BOOTREC, LT_SPLEAF, LT_INODE, LT_DATABK in *.
    replace (5 <=? t) with false by (symmetry; apply Z.leb_gt; lia). cbn [andb].
    rewrite (bind_ok _ _ s s tt); [reflexivity|]. apply assert_ok. apply andb_true_iff. split; apply Z.leb_le; lia.
Qed.
Lemma home_cls k : key_ok k -> kcls k = CU -> home k = QUnis.
Proof.
  intros [W V] K. destruct k as [v|u]; [discriminate|]. unfold home. cbn [key_ltype] in *.
  destruct (Z.eqb_spec (ls_ltype (la_lsid (ua_laddr u))) LT_INODE); [|reflexivity]. unfold LT_INODE, LT_SPLEAF in *. lia.
Qed.
Lemma home_live s k : q_live s (home k).
Proof. unfold home. destruct (_ =? _); [exact Logic.I|destruct k; exact Logic.I]. Qed.
Lemma key_ok_size k : key_ok k -> 0 < ltype_size (key_ltype k).
Proof.
  intros [W V]. assert (A : 1 <= key_ltype k <= 12).
  { destruct k as [v|u]; cbn [key_ltype] in *; [unfold ltype_isvnode in V; apply andb_true_iff in V as [A B]; apply Z.leb_le in A, B|];
      unfold LT_INODE, LT_DATABK, LT_BOOTREC, LT_SPLEAF in *; lia. }
  set (t := key_ltype k) in *. clearbody t.
  assert (X : t = 1 \/ t = 2 \/ t = 3 \/ t = 4 \/ t = 5 \/ t = 6 \/ t = 7 \/ t = 8 \/ t = 9 \/ t = 10 \/ t = 11 \/ t = 12) by lia.
  repeat (destruct X as [->|X]; [reflexivity|]). now subst.
Qed.

Lemma reditify_eff s i n : Inv s -> lc_node s i = Some n -> ncls n = CV -> key_ok (n_key n) ->
  exists s', reditify_vni i s = COk s' tt /\ Inv s' /\ frame s s' /\
    (forall j, lc_node s' j = fset (lc_node s) i (Some (set_inq (set_dq n (Some (home (n_key n)))) true)) j) /\
    (forall c, lc_hm s' c = lc_hm s c) /\
    (forall q, dq_l (lc_q s' q) = if qid_eqb (home (n_key n)) q then del i (dq_l (lc_q s q)) ++ [i] else del i (dq_l (lc_q s q))).
Proof.
  intros I E K Ko. unfold reditify_vni.
  destruct (undirtify_eff s i n I E) as (s1 & R1 & I1 & F1 & N1 & H1 & Q1). rewrite (bind_ok _ _ _ _ _ R1).
  assert (E1 : lc_node s1 i = Some (set_inq n false)) by (rewrite N1; apply fset_same).
  rewrite (bind_ok _ _ _ _ _ (node_ok _ _ _ E1)). cbn [set_inq n_key].
  rewrite (bind_ok _ _ _ _ _ (dirtyq_by_ok (n_key n) s1 Ko)).
  destruct (setq_eff s1 i _ (home (n_key n)) I1 E1 eq_refl) as [R2 I2].
  { unfold ncls in *. cbn [set_inq n_key]. congruence. }
  rewrite (bind_ok _ _ _ _ _ R2). set (s2 := put_node s1 i _) in *.
  assert (E2 : lc_node s2 i = Some (set_dq (set_inq n false) (Some (home (n_key n))))) by (unfold s2; cbn [put_node lc_node]; apply fset_same).
  destruct (dirtify_eff s2 i _ None I2 E2 eq_refl K) as (s3 & q & R3 & I3 & F3 & T3 & N3 & H3 & Q3).
  { intros q Hq. cbn in Hq. assert (q = home (n_key n)) by congruence. subst q. apply home_live. }
  cbn in T3. assert (q = home (n_key n)) by congruence. subst q.
  exists s3. split; [easy|]. split; [easy|]. split; [eapply frame_trans; [exact F1|exact F3]|]. split; [|split].
  - intros j. rewrite N3. unfold s2. cbn [put_node lc_node]. rewrite fset_fset, (fset_ext _ _ i _ j N1). apply fset_fset.
  - intros c. rewrite H3. apply H1.
  - intros q. rewrite Q3. change (lc_q s2) with (lc_q s1). now rewrite Q1.
Qed.

(* silofs_ii_undirtify_vnis *)
Lemma undirtify_vnis_eff n : forall s p, Inv s -> (exists m, lc_node s p = Some m) -> (length (dq_l (lc_q s (QIno p))) <= n)%nat ->
  exists s', undirtify_vnis n p s = COk s' tt /\ Inv s' /\ frame s s' /\
    (forall j, lc_node s' j = match lc_node s j with
                              | Some m => Some (if has j (dq_l (lc_q s (QIno p))) then set_inq m false else m)
                              | None => None end) /\
    (forall c, lc_hm s' c = lc_hm s c) /\
    (forall q, dq_l (lc_q s' q) = if qid_eqb (QIno p) q then [] else dq_l (lc_q s q)).
Proof.
  induction n as [|n IH]; intros s p I (m & E) Ln.
  - exists s. cbn [undirtify_vnis]. rewrite (bind_ok _ _ _ _ _ (node_ok _ _ _ E)). unfold cbind, cget.
    destruct (dq_l (lc_q s (QIno p))) as [|a t] eqn:El; [|cbn in Ln; lia].
    split; [reflexivity|]. split; [easy|]. split; [apply frame_refl|]. split; [|split; [easy|]].
    + intros j. cbn. now destruct (lc_node s j).
    + intros q. destruct (qid_eqb (QIno p) q) eqn:Eq; [|easy]. apply qid_eqb_eq in Eq. now subst.
  - cbn [undirtify_vnis]. rewrite (bind_ok _ _ _ _ _ (node_ok _ _ _ E)). unfold cbind at 1, cget.
    destruct (dq_l (lc_q s (QIno p))) as [|a t] eqn:El.
    + exists s. split; [reflexivity|]. split; [easy|]. split; [apply frame_refl|]. split; [|split; [easy|]].
      * intros j. cbn. now destruct (lc_node s j).
      * intros q. destruct (qid_eqb (QIno p) q) eqn:Eq; [|easy]. apply qid_eqb_eq in Eq. now subst.
    + assert (A : 0 <? dq_sz (lc_q s (QIno p)) = true).
      { apply Z.ltb_lt. rewrite (I_qsz _ _ I), El, zlen_cons. pose proof (zlen_nonneg _ t). lia. }
      rewrite (bind_ok _ _ _ _ _ (assert_ok _ _ A)).
      assert (Ha : In a (dq_l (lc_q s (QIno p)))) by (rewrite El; now left).
      apply (I_q _ _ I) in Ha as (ma & Ea & Qa & Da).
      destruct (undirtify_eff s a ma I Ea) as (s1 & R1 & I1 & F1 & N1 & H1 & Q1). rewrite (bind_ok _ _ _ _ _ R1).
      pose proof (I_qnd _ _ I (QIno p)) as Nd. rewrite El in Nd. apply NoDup_cons_iff in Nd as [Na Nt].
      assert (Q1p : dq_l (lc_q s1 (QIno p)) = t).
      { rewrite Q1, El. cbn [del filter]. rewrite Z.eqb_refl. cbn [negb]. now apply del_notin. }
      destruct (IH s1 p I1) as (s2 & R2 & I2 & F2 & N2 & H2 & Q2).
      * rewrite N1. unfold fset. destruct (p =? a); eauto.
      * rewrite Q1p. cbn in Ln. lia.
      * exists s2. split; [exact R2|]. split; [easy|]. split; [eapply frame_trans; eauto|]. split; [|split].
        -- intros j. rewrite N2, N1, Q1p. unfold fset. destruct (Z.eqb_spec j a) as [->|Nj].
           ++ rewrite Ea. cbn [has existsb]. rewrite Z.eqb_refl. cbn [orb].
              destruct (has a t) eqn:Ht; [apply has_In in Ht; easy|reflexivity].
           ++ destruct (lc_node s j); [|reflexivity]. cbn [has existsb]. destruct (Z.eqb_spec j a); [easy|reflexivity].
        -- intros c. now rewrite H2.
        -- intros q. rewrite Q2, Q1. destruct (qid_eqb (QIno p) q) eqn:Eq; [reflexivity|].
           apply del_notin. rewrite (Inv_inQ _ _ _ I), Ea. unfold inQ. rewrite Da, Eq. now rewrite andb_false_r.
Qed.

(* lcache_forget_vni *)
Lemma forget_eff s i n : Inv s -> lc_node s i = Some n -> ncls n = CV ->
  (n_ref n = 0 -> is_inode n = true -> del i (dq_l (lc_q s (QIno i))) = []) ->
  exists s', forget_vni i s = COk s' tt /\ Inv s' /\ frame s s' /\
    (forall j, lc_node s' j = fset (lc_node s) i
       (if 0 <? n_ref n then Some (set_forgot (set_mapped (set_inq n false) false) true) else None) j) /\
    (forall c, hq_lru (lc_hm s' c) = if 0 <? n_ref n then hq_lru (lc_hm s c) else del i (hq_lru (lc_hm s c))) /\
    (forall q, dq_l (lc_q s' q) = del i (dq_l (lc_q s q))).
Proof.
  intros I E K Own. unfold forget_vni. pose proof (g_ref _ _ _ _ (I_node _ _ I _ _ E)) as Rf.
  destruct (undirtify_eff s i n I E) as (s1 & R1 & I1 & F1 & N1 & H1 & Q1). rewrite (bind_ok _ _ _ _ _ R1).
  assert (E1 : lc_node s1 i = Some (set_inq n false)) by (rewrite N1; apply fset_same).
  rewrite (bind_ok _ _ _ _ _ (sanitize_ok _ _ _ E1 Rf)). rewrite (bind_ok _ _ _ _ _ (node_ok _ _ _ E1)). cbn [set_inq n_ref].
  destruct (Z.ltb_spec 0 (n_ref n)).
  - destruct (unmap_eff s1 CV i _ I1 E1 K) as (s2 & R2 & I2 & F2 & N2 & L2 & Q2). rewrite (bind_ok _ _ _ _ _ R2).
    assert (E2 : lc_node s2 i = Some (set_mapped (set_inq n false) false)) by (rewrite N2; apply fset_same).
    rewrite (upd_ok i _ s2 _ E2). eexists. split; [reflexivity|]. split; [|split; [eapply frame_trans; [exact F1|exact F2]|split; [|split]]].
    + apply (Inv_attr s2 i _ _ I2 E2); auto. destruct (I_node _ _ I2 _ _ E2) as [a b e d0 e0 f g h]. constructor; auto.
    + intros j. cbn [put_node lc_node]. rewrite (fset_ext _ _ i _ j N2), fset_fset, (fset_ext _ _ i _ j N1). apply fset_fset.
    + intros c. cbn [put_node lc_hm]. now rewrite L2, H1.
    + intros q. cbn [put_node lc_q]. now rewrite Q2, Q1.
  - assert (R0 : n_ref n = 0) by lia.
    destruct (evict_eff s1 CV i _ I1 E1 K R0) as (s2 & R2 & I2 & F2 & N2 & L2 & Q2); [reflexivity| |].
    { intros Hi. rewrite Q1. now apply Own. }
    exists s2. split; [exact R2|]. split; [easy|]. split; [eapply frame_trans; eauto|]. split; [|split].
    + intros j. rewrite N2, (fset_ext _ _ i _ j N1). apply fset_fset.
    + intros c. now rewrite L2, H1.
    + intros q. rewrite Q2, Q1. apply del_idem.
Qed.
End Ops.
