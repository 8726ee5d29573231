(* Proofs about the object cache of CacheModel.v: the invariant of its lists, and what single
   operations do to the objects. *)
From Coq Require Import ZArith List Lia Bool Permutation.
From Verif Require Import Base AddrModel CacheModel.
Import ListNotations.
Open Scope Z_scope.

(* --- lists --- *)
Lemma has_In i l : has i l = true <-> In i l.
Proof.
  unfold has. rewrite existsb_exists. split.
  - intros (x & A & B). apply Z.eqb_eq in B. now subst.
  - intros A. exists i. split; [easy|apply Z.eqb_refl].
Qed.
Lemma In_del i j l : In j (del i l) <-> In j l /\ j <> i.
Proof.
  unfold del. rewrite filter_In, negb_true_iff, Z.eqb_neq. split; intros [A B]; split; auto.
Qed.
Lemma NoDup_del i l : NoDup l -> NoDup (del i l).
Proof. apply NoDup_filter. Qed.
Lemma del_notin i l : ~ In i l -> del i l = l.
Proof.
  induction l as [|a t IH]; intros H; [easy|]. cbn [del filter].
  replace (i =? a) with false by (symmetry; apply Z.eqb_neq; intros ->; apply H; now left).
  cbn [negb]. f_equal. apply IH. intros A. apply H. now right.
Qed.
Lemma perm_del i l : NoDup l -> In i l -> Permutation l (i :: del i l).
Proof.
  induction l as [|a t IH]; intros N H; [easy|]. apply NoDup_cons_iff in N as [N1 N2].
  cbn [del filter]. destruct (Z.eqb_spec i a) as [->|E]; cbn [negb].
  - constructor. fold (del a t). rewrite del_notin by easy. reflexivity.
  - destruct H as [H|H]; [congruence|]. fold (del i t).
    eapply perm_trans; [apply perm_skip, (IH N2 H)|apply perm_swap].
Qed.
Lemma zlen_perm (l l' : list Z) : Permutation l l' -> zlen l = zlen l'.
Proof. intros P. unfold zlen. now rewrite (Permutation_length P). Qed.
Lemma zlen_del i l : NoDup l -> In i l -> zlen (del i l) = zlen l - 1.
Proof. intros N H. rewrite (zlen_perm _ _ (perm_del i l N H)). unfold zlen. cbn [length]. lia. Qed.
Lemma zsum_perm l l' : Permutation l l' -> zsum l = zsum l'.
Proof. induction 1; rewrite ?zsum_cons; try lia; reflexivity. Qed.
Lemma filter_perm {A} (f : A -> bool) l l' : Permutation l l' -> Permutation (filter f l) (filter f l').
Proof.
  induction 1; cbn [filter]; auto.
  - destruct (f x); auto.
  - destruct (f x), (f y); auto. apply perm_swap.
  - eapply perm_trans; eauto.
Qed.
Lemma del_app i l m : del i (l ++ m) = del i l ++ del i m.
Proof. apply filter_app. Qed.

(* --- keys --- *)
Lemma uuid_compare_0 a : forall b, uuid_compare a b = 0 <-> a = b.
Proof.
  induction a as [|x a IH]; intros [|y b]; cbn [uuid_compare]; split; intros H; try easy; try discriminate.
  - destruct (Z.eqb_spec x y) as [->|E]; [|lia]. f_equal. now apply IH.
  - injection H as -> ->. rewrite Z.eqb_refl. now apply IH.
Qed.
Lemma lsid_compare_0 a b : lsid_compare a b = 0 <-> a = b.
Proof.
  unfold lsid_compare. destruct a as [a1 a2 a3 a4 a5 a6], b as [b1 b2 b3 b4 b5 b6].
  cbn [ls_lvid ls_height ls_vindex ls_vspace ls_ltype ls_lsize].
  destruct (Z.eqb_spec (uuid_compare a1 b1) 0) as [E|E]; cbn [negb].
  - apply uuid_compare_0 in E. subst b1.
    destruct (Z.eqb_spec (b5 - a5) 0); cbn [negb]; [|split; intros H; [lia|injection H; lia]].
    destruct (Z.eqb_spec (b3 - a3) 0); cbn [negb]; [|split; intros H; [lia|injection H; lia]].
    destruct (Z.eqb_spec (b4 - a4) 0); cbn [negb]; [|split; intros H; [lia|injection H; lia]].
    destruct (Z.eqb_spec (b6 - a6) 0); cbn [negb]; [|split; intros H; [lia|injection H; lia]].
    split; intros H; [f_equal; lia|injection H; lia].
  - split; intros H; [easy|]. injection H as -> _. exfalso. apply E. now apply uuid_compare_0.
Qed.
Lemma uaddr_compare_0 a b : uaddr_compare a b = 0 <-> a = b.
Proof.
  unfold uaddr_compare, laddr_compare. destruct a as [[a1 a2 a3] a4], b as [[b1 b2 b3] b4].
  cbn [ua_laddr ua_voff la_lsid la_pos la_len].
  destruct (Z.eqb_spec (lsid_compare a1 b1) 0) as [E|E]; cbn [negb].
  - apply lsid_compare_0 in E. subst b1.
    destruct (Z.eqb_spec (a2 - b2) 0) as [E2|E2]; cbn [negb].
    + destruct (Z.eqb_spec (a3 - b3) 0) as [E3|E3]; cbn [negb].
      * split; intros H; [|injection H; lia]. replace b2 with a2 by lia. replace b3 with a3 by lia. f_equal. lia.
      * split; intros H; [lia|injection H; lia].
    + destruct (Z.eqb_spec (a2 - b2) 0); cbn [negb]; [lia|]. split; intros H; [lia|injection H; lia].
  - destruct (Z.eqb_spec (lsid_compare a1 b1) 0) as [E1|E1]; [lia|]. cbn [negb].
    split; intros H; [lia|]. injection H as -> _ _ _. exfalso. apply E. now apply lsid_compare_0.
Qed.
(* types of addresses are small numbers *)
Definition key_wf (k : key) : Prop := match k with KV v => 0 <= va_ltype v < 256 | KU _ => True end.
Lemma vaddr_compare_0 a b : 0 <= va_ltype a < 256 -> 0 <= va_ltype b < 256 -> (vaddr_compare a b = 0 <-> a = b).
Proof.
  intros A B. unfold vaddr_compare. destruct a as [a1 a2 a3], b as [b1 b2 b3]. cbn [va_off va_ltype va_len] in *.
  destruct (Z.eqb_spec (u32 (a2 - b2)) 0) as [E|E]; cbn [negb].
  - assert (a2 = b2). { unfold u32 in E. revert E. destruct (Z.leb_spec 0 (a2 - b2)).
      - rewrite Z.mod_small by lia. lia.
      - rewrite <- (Z.mod_add (a2 - b2) 1) by lia. rewrite Z.mod_small by lia. lia. }
    subst b2. destruct (Z.eqb_spec (a1 - b1) 0); cbn [negb]; (split; intros H; [try lia|injection H; lia]).
    f_equal; lia.
  - split; intros H; [lia|]. injection H as -> -> ->. rewrite Z.sub_diag in E. now cbn in E.
Qed.
Lemma hkey_compare_0 a b : key_wf a -> key_wf b -> (hkey_compare a b = 0 <-> a = b).
Proof.
  intros A B. unfold hkey_compare. destruct a as [a|a], b as [b|b]; cbn [key_type]; try (split; intros H; discriminate).
  - cbn. rewrite vaddr_compare_0 by easy. split; intros H; [now f_equal|congruence].
  - cbn. rewrite uaddr_compare_0. split; intros H; [now f_equal|congruence].
Qed.

Section Proofs.
Variable H64 : lsid -> Z.
Notation hash := (hkey_hash_of H64).

Lemma hkey_isequal_spec a b : key_wf a -> key_wf b -> hkey_isequal a (hash a) b (hash b) = true <-> a = b.
Proof.
  intros A B. unfold hkey_isequal. rewrite !andb_true_iff, !Z.eqb_eq, hkey_compare_0 by easy.
  split; [intros [_ ?]; easy|]. intros ->. auto.
Qed.

(* --- running --- *)
Lemma bind_ok {A B} (m : C A) (f : A -> C B) s s' a : m s = COk s' a -> cbind m f s = f a s'.
Proof. intros H. unfold cbind. now rewrite H. Qed.
Lemma node_ok i s n : lc_node s i = Some n -> node_of i s = COk s n.
Proof. intros H. unfold node_of. now rewrite H. Qed.
Lemma assert_ok b s : b = true -> cassert b s = COk s tt.
Proof. now intros ->. Qed.
Lemma upd_ok i f s n : lc_node s i = Some n -> upd i f s = COk (put_node s i (Some (f n))) tt.
Proof. intros H. unfold upd. rewrite (bind_ok _ _ _ _ _ (node_ok _ _ _ H)). reflexivity. Qed.
Lemma sanitize_ok i s n : lc_node s i = Some n -> 0 <= n_ref n -> sanitize i s = COk s tt.
Proof.
  intros H R. unfold sanitize. rewrite (bind_ok _ _ _ _ _ (node_ok _ _ _ H)). apply assert_ok.
  apply negb_true_iff, Z.ltb_ge, R.
Qed.

(* --- the invariant --- *)
Definition ncls (n : node) : cls := match n_key n with KV _ => CV | KU _ => CU end.
Definition mapped_in (s : lcache) (i : Z) : bool := match lc_node s i with Some n => n_mapped n | None => false end.
Definition sz_in (s : lcache) (i : Z) : Z := match lc_node s i with Some n => n_sz n | None => 0 end.
Record good (s : lcache) (i : Z) (n : node) : Prop := mkGood {
  g_wf : key_wf (n_key n);
  g_hash : n_hash n = hash (n_key n);
  g_ref : 0 <= n_ref n;
  g_sz : 0 < n_sz n;
  g_nopen : 0 <= n_nopen n;
  g_next : i < lc_next s;
  g_dq : exists q, n_dq n = Some q /\ (ncls n = CU -> q = QUnis);
  g_forgot : n_forgot n = true -> n_mapped n = false }.
Record Inv (s : lcache) : Prop := mkInv {
  I_ns : forall c, 0 < hq_nslots (lc_hm s c);
  I_lnd : forall c, NoDup (hq_lru (lc_hm s c));
  I_sz : forall c, hq_sz (lc_hm s c) = zlen (hq_lru (lc_hm s c));
  I_lru : forall c i, In i (hq_lru (lc_hm s c)) <-> exists n, lc_node s i = Some n /\ ncls n = c;
  I_cnd : forall c k, NoDup (hq_tbl (lc_hm s c) k);
  I_ch : forall c k i, In i (hq_tbl (lc_hm s c) k) <->
           exists n, lc_node s i = Some n /\ ncls n = c /\ n_mapped n = true /\ slot_of (lc_hm s c) (n_hash n) = k;
  I_size : forall c, hq_size (lc_hm s c) = zlen (filter (mapped_in s) (hq_lru (lc_hm s c)));
  I_node : forall i n, lc_node s i = Some n -> good s i n;
  I_qnd : forall q, NoDup (dq_l (lc_q s q));
  I_q : forall q i, In i (dq_l (lc_q s q)) <-> exists n, lc_node s i = Some n /\ n_inq n = true /\ n_dq n = Some q;
  I_qsz : forall q, dq_sz (lc_q s q) = zlen (dq_l (lc_q s q));
  I_qac : forall q, dq_accum (lc_q s q) = zsum (map (sz_in s) (dq_l (lc_q s q)));
  I_qown : forall p i, In i (dq_l (lc_q s (QIno p))) -> exists n, lc_node s p = Some n /\ is_inode n = true }.

(* an object without the counters of hits *)
Definition still (n : node) : node := set_hhit (set_lhit n 0) 0.
Record Same (s s' : lcache) : Prop := mkSame {
  S_node : forall i, option_map still (lc_node s' i) = option_map still (lc_node s i);
  S_lru : forall c, Permutation (hq_lru (lc_hm s c)) (hq_lru (lc_hm s' c));
  S_tbl : forall c k, Permutation (hq_tbl (lc_hm s c) k) (hq_tbl (lc_hm s' c) k);
  S_sz : forall c, hq_sz (lc_hm s' c) = hq_sz (lc_hm s c);
  S_ns : forall c, hq_nslots (lc_hm s' c) = hq_nslots (lc_hm s c);
  S_size : forall c, hq_size (lc_hm s' c) = hq_size (lc_hm s c);
  S_q : forall q, lc_q s' q = lc_q s q;
  S_next : lc_next s' = lc_next s }.
Lemma Same_refl s : Same s s.
Proof. constructor; auto. Qed.
Lemma Same_trans a b c : Same a b -> Same b c -> Same a c.
Proof.
  intros X Y. destruct X as [A1 A2 A3 A4 A5 A6 A7 A8], Y as [B1 B2 B3 B4 B5 B6 B7 B8].
  constructor; intros; try congruence; try (eapply perm_trans; eauto; fail).
Qed.
Lemma Same_node s s' i n : Same s s' -> lc_node s i = Some n -> exists n', lc_node s' i = Some n' /\ still n' = still n.
Proof.
  intros S E. pose proof (S_node _ _ S i) as H. rewrite E in H. cbn [option_map] in H.
  destruct (lc_node s' i) as [n'|]; [|discriminate]. exists n'. split; [easy|]. cbn in H. congruence.
Qed.
Lemma Same_node' s s' i n : Same s s' -> lc_node s' i = Some n -> exists n', lc_node s i = Some n' /\ still n = still n'.
Proof.
  intros S E. pose proof (S_node _ _ S i) as H. rewrite E in H. cbn [option_map] in H.
  destruct (lc_node s i) as [n'|]; [|discriminate]. exists n'. split; [easy|]. cbn in H. congruence.
Qed.
Lemma still_fields n m : still n = still m ->
  n_key n = n_key m /\ n_hash n = n_hash m /\ n_mapped n = n_mapped m /\ n_forgot n = n_forgot m /\
  n_ref n = n_ref m /\ n_sz n = n_sz m /\ n_dq n = n_dq m /\ n_inq n = n_inq m /\ n_pinned n = n_pinned m /\
  n_nopen n = n_nopen m /\ ncls n = ncls m /\ is_inode n = is_inode m.
Proof.
  destruct n as [a1 a2 a3 a4 a5 a6 a7 a8 a9 a10 a11 a12], m as [b1 b2 b3 b4 b5 b6 b7 b8 b9 b10 b11 b12].
  unfold still, set_hhit, set_lhit, ncls, is_inode.
  cbn [n_key n_hash n_hhit n_lhit n_mapped n_forgot n_ref n_sz n_dq n_inq n_pinned n_nopen].
  intros H. injection H as -> -> -> -> -> -> -> -> -> ->. repeat split; reflexivity.
Qed.
Lemma good_still s s' i n n' : lc_next s' = lc_next s -> still n' = still n -> good s i n -> good s' i n'.
Proof.
  intros N E G. apply still_fields in E as (E1 & E2 & E3 & E4 & E5 & E6 & E7 & E8 & E9 & E10 & E11 & E12).
  destruct G as [a b c d e f g h]. constructor; rewrite ?E1, ?E2, ?E3, ?E4, ?E5, ?E6, ?E7, ?E10, ?E11, ?N; auto.
Qed.
Lemma slot_same h h' x : hq_nslots h' = hq_nslots h -> slot_of h' x = slot_of h x.
Proof. unfold slot_of. now intros ->. Qed.
Lemma mapped_same s s' : Same s s' -> forall i, mapped_in s' i = mapped_in s i.
Proof.
  intros S i. unfold mapped_in. pose proof (S_node _ _ S i) as H.
  destruct (lc_node s' i), (lc_node s i); cbn in H; try discriminate; auto.
  assert (E : still n = still n0) by congruence. now apply still_fields in E as (_ & _ & E & _).
Qed.
Lemma sz_same s s' : Same s s' -> forall i, sz_in s' i = sz_in s i.
Proof.
  intros S i. unfold sz_in. pose proof (S_node _ _ S i) as H.
  destruct (lc_node s' i), (lc_node s i); cbn in H; try discriminate; auto.
  assert (E : still n = still n0) by congruence. now apply still_fields in E as (_ & _ & _ & _ & _ & E & _).
Qed.
Lemma Same_Inv s s' : Same s s' -> Inv s -> Inv s'.
Proof.
  intros S I. constructor.
  - intros c. rewrite (S_ns _ _ S). apply I.
  - intros c. eapply Permutation_NoDup; [apply (S_lru _ _ S)|apply I].
  - intros c. rewrite (S_sz _ _ S), (I_sz _ I). apply zlen_perm, S_lru, S.
  - intros c i. split.
    + intros H. apply (Permutation_in _ (Permutation_sym (S_lru _ _ S c))) in H. apply (I_lru _ I) in H as (n & A & B).
      destruct (Same_node _ _ _ _ S A) as (n' & A' & B'). exists n'. split; [easy|].
      apply still_fields in B'. intuition congruence.
    + intros (n & A & B). destruct (Same_node' _ _ _ _ S A) as (n' & A' & B').
      apply (Permutation_in _ (S_lru _ _ S c)). apply (I_lru _ I). exists n'. split; [easy|].
      apply still_fields in B'. intuition congruence.
  - intros c k. eapply Permutation_NoDup; [apply (S_tbl _ _ S)|apply I].
  - intros c k i. split.
    + intros H. apply (Permutation_in _ (Permutation_sym (S_tbl _ _ S c k))) in H.
      apply (I_ch _ I) in H as (n & A & B & M & K). destruct (Same_node _ _ _ _ S A) as (n' & A' & B'). exists n'.
      apply still_fields in B' as (e1 & e2 & e3 & _ & _ & _ & _ & _ & _ & _ & e4 & _).
      rewrite (slot_same _ _ _ (S_ns _ _ S c)), e2, e3, e4. auto.
    + intros (n & A & B & M & K). destruct (Same_node' _ _ _ _ S A) as (n' & A' & B').
      apply (Permutation_in _ (S_tbl _ _ S c k)). apply (I_ch _ I). exists n'.
      apply still_fields in B' as (e1 & e2 & e3 & _ & _ & _ & _ & _ & _ & _ & e4 & _).
      rewrite (slot_same _ _ _ (S_ns _ _ S c)) in K. rewrite <- e2, <- e3, <- e4. auto.
  - intros c. rewrite (S_size _ _ S), (I_size _ I).
    rewrite (filter_ext _ _ (mapped_same _ _ S)). apply zlen_perm, filter_perm, S_lru, S.
  - intros i n E. destruct (Same_node' _ _ _ _ S E) as (n' & A & B).
    eapply good_still; [apply S|apply B|apply (I_node _ I _ _ A)].
  - intros q. rewrite (S_q _ _ S). apply I.
  - intros q i. rewrite (S_q _ _ S), (I_q _ I). split; intros (n & A & B & D).
    + destruct (Same_node _ _ _ _ S A) as (n' & A' & B'). exists n'. apply still_fields in B'. intuition congruence.
    + destruct (Same_node' _ _ _ _ S A) as (n' & A' & B'). exists n'. apply still_fields in B'. intuition congruence.
  - intros q. rewrite (S_q _ _ S). apply I.
  - intros q. rewrite (S_q _ _ S), (I_qac _ I). f_equal. apply map_ext. intros a. symmetry. apply sz_same, S.
  - intros p i. rewrite (S_q _ _ S). intros H. apply (I_qown _ I) in H as (n & A & B).
    destruct (Same_node _ _ _ _ S A) as (n' & A' & B'). exists n'. apply still_fields in B'. intuition congruence.
Qed.

(* --- changes of parts of the state --- *)
Lemma cset_same {A} (f : cls -> A) c x : cset f c x c = x.
Proof. now destruct c. Qed.
Lemma cset_other {A} (f : cls -> A) c c' x : c <> c' -> cset f c x c' = f c'.
Proof. destruct c, c'; easy. Qed.
Lemma qid_eqb_eq a b : qid_eqb a b = true <-> a = b.
Proof.
  destruct a, b; cbn; try (split; easy). rewrite Z.eqb_eq. split; [now intros ->|congruence].
Qed.
Lemma qset_same {A} (f : qid -> A) q x : qset f q x q = x.
Proof. unfold qset. now rewrite (proj2 (qid_eqb_eq q q) eq_refl). Qed.
Lemma qset_other {A} (f : qid -> A) q q' x : q <> q' -> qset f q x q' = f q'.
Proof. intros N. unfold qset. destruct (qid_eqb q q') eqn:E; [|easy]. now apply qid_eqb_eq in E. Qed.
Lemma cls_dec (a b : cls) : {a = b} + {a <> b}.
Proof. decide equality. Qed.
Lemma qid_dec (a b : qid) : {a = b} + {a <> b}.
Proof. decide equality. apply Z.eq_dec. Qed.

(* only hits of one object change *)
Lemma Same_hits s i n n' : lc_node s i = Some n -> still n' = still n -> Same s (put_node s i (Some n')).
Proof.
  intros E H. constructor; intros; cbn [put_node lc_node lc_hm lc_q lc_next]; auto.
  destruct (Z.eq_dec i0 i) as [->|N]; [rewrite fset_same, E; cbn; now rewrite H|now rewrite fset_other].
Qed.
(* a new order of a list *)
Lemma Same_lru s c l : Permutation (hq_lru (lc_hm s c)) l -> Same s (put_hm s c (set_lru (lc_hm s c) l (hq_sz (lc_hm s c)))).
Proof.
  intros P. constructor; intros; cbn [put_hm lc_node lc_hm lc_q lc_next]; auto;
    (destruct (cls_dec c c0) as [<-|N]; [rewrite cset_same|rewrite cset_other by easy]); cbn [set_lru hq_lru hq_sz hq_tbl hq_nslots hq_size]; auto.
Qed.
Lemma Same_chain s c x l : Permutation (chain_of (lc_hm s c) x) l -> Same s (put_hm s c (set_chain (lc_hm s c) x l)).
Proof.
  intros P. constructor; intros; cbn [put_hm lc_node lc_hm lc_q lc_next]; auto;
    (destruct (cls_dec c c0) as [<-|N]; [rewrite cset_same|rewrite cset_other by easy]); cbn [set_chain hq_lru hq_sz hq_tbl hq_nslots hq_size]; auto.
  unfold chain_of in P. destruct (Z.eq_dec k (slot_of (lc_hm s c) x)) as [->|N]; [rewrite fset_same|rewrite fset_other by easy]; auto.
Qed.

(* --- moving objects to the front --- *)
Lemma In_lru s i n : Inv s -> lc_node s i = Some n -> In i (hq_lru (lc_hm s (ncls n))).
Proof. intros I E. apply (I_lru _ I). eauto. Qed.
Lemma lru_remove_ok s c i : In i (hq_lru (lc_hm s c)) ->
  lru_remove c i s = COk (put_hm s c (set_lru (lc_hm s c) (del i (hq_lru (lc_hm s c))) (hq_sz (lc_hm s c) - 1))) tt.
Proof.
  intros H. unfold lru_remove, cbind at 1, cget. rewrite (bind_ok _ _ _ _ _ (assert_ok _ _ (proj2 (has_In _ _) H))). reflexivity.
Qed.
Lemma chain_remove_ok s c i n : lc_node s i = Some n -> In i (chain_of (lc_hm s c) (n_hash n)) ->
  chain_remove c i s = COk (put_hm s c (set_chain (lc_hm s c) (n_hash n) (del i (chain_of (lc_hm s c) (n_hash n))))) tt.
Proof.
  intros E H. unfold chain_remove. rewrite (bind_ok _ _ _ _ _ (node_ok _ _ _ E)). unfold cbind at 1, cget.
  rewrite (bind_ok _ _ _ _ _ (assert_ok _ _ (proj2 (has_In _ _) H))). reflexivity.
Qed.

Lemma lru_push_ok s c i :
  lru_push c i s = COk (put_hm s c (set_lru (lc_hm s c) (i :: hq_lru (lc_hm s c)) (hq_sz (lc_hm s c) + 1))) tt.
Proof. reflexivity. Qed.

Lemma promote_lru_ok s c i n now : Inv s -> lc_node s i = Some n -> ncls n = c ->
  exists s', promote_lru c i now s = COk s' tt /\ Same s s' /\
    (forall c', c' <> c -> hq_lru (lc_hm s' c') = hq_lru (lc_hm s c')) /\
    (now = true -> hq_lru (lc_hm s' c) =
       if is_front i (hq_lru (lc_hm s c)) then hq_lru (lc_hm s c) else i :: del i (hq_lru (lc_hm s c))).
Proof.
  intros I E <-. unfold promote_lru. rewrite (bind_ok _ _ _ _ _ (upd_ok _ _ _ _ E)).
  set (n1 := set_lhit n (n_lhit n + 1)). set (s1 := put_node s i (Some n1)).
  assert (E1 : lc_node s1 i = Some n1) by apply fset_same.
  assert (S1 : Same s s1) by (apply (Same_hits s i n); [easy|now destruct n]).
  rewrite (bind_ok _ _ _ _ _ (node_ok _ _ _ E1)). unfold cbind at 1, cget.
  change (lc_hm s1) with (lc_hm s). set (c := ncls n).
  destruct (is_front i (hq_lru (lc_hm s c))) eqn:F; cbn [negb andb].
  { exists s1. repeat split; auto; apply S1. }
  destruct (now || need_relru i n1 (lc_hm s c)) eqn:N.
  2:{ exists s1. repeat split; auto; try apply S1. intros ->. discriminate. }
  pose proof (In_lru _ _ _ I E) as L. fold c in L.
  rewrite (bind_ok _ _ _ _ _ (sanitize_ok i s1 n1 E1 (g_ref _ _ _ (I_node _ I _ _ E)))).
  rewrite (bind_ok _ _ _ _ _ (lru_remove_ok s1 c i L)).
  change (lc_hm s1) with (lc_hm s). rewrite (bind_ok _ _ _ _ _ (lru_push_ok _ c i)).
  set (s2 := put_hm _ c _). assert (E2 : lc_node s2 i = Some n1) by exact E1.
  rewrite (upd_ok _ _ _ _ E2). eexists. split; [reflexivity|].
  assert (P : Permutation (hq_lru (lc_hm s c)) (i :: del i (hq_lru (lc_hm s c)))) by (apply perm_del; [apply I|easy]).
  split; [|split].
  - eapply Same_trans; [exact S1|]. eapply Same_trans; [|apply (Same_hits s2 i n1); [easy|now destruct n1]].
    pose proof (Same_lru s1 c (i :: del i (hq_lru (lc_hm s c))) P) as X.
    constructor; intros; try apply X; unfold s2; cbn [lc_node lc_hm lc_q lc_next put_hm];
      (destruct (cls_dec c c0) as [<-|Nc]; [rewrite !cset_same|rewrite !cset_other by easy; try reflexivity]);
      cbn [set_lru hq_lru hq_sz hq_tbl hq_nslots hq_size]; try reflexivity; [exact P|].
    change (lc_hm s1) with (lc_hm s). lia.
  - intros c' Nc. unfold s2. cbn [put_node lc_hm put_hm]. now rewrite !cset_other by auto.
  - intros _. unfold s2. cbn [put_node lc_hm put_hm]. now rewrite !cset_same.
Qed.

Lemma In_chain s i n : Inv s -> lc_node s i = Some n -> n_mapped n = true -> In i (chain_of (lc_hm s (ncls n)) (n_hash n)).
Proof. intros I E M. unfold chain_of. apply (I_ch _ I). eauto 6. Qed.

Lemma promote_hlnk_ok s c i n : Inv s -> lc_node s i = Some n -> ncls n = c -> n_mapped n = true ->
  exists s', promote_hlnk c i s = COk s' tt /\ Same s s' /\ (forall c', hq_lru (lc_hm s' c') = hq_lru (lc_hm s c')).
Proof.
  intros I E <- M. unfold promote_hlnk. rewrite (bind_ok _ _ _ _ _ (upd_ok _ _ _ _ E)).
  set (n1 := set_hhit n (n_hhit n + 1)). set (s1 := put_node s i (Some n1)).
  assert (E1 : lc_node s1 i = Some n1) by apply fset_same.
  assert (S1 : Same s s1) by (apply (Same_hits s i n); [easy|now destruct n]).
  assert (I1 : Inv s1) by (eapply Same_Inv; eauto).
  rewrite (bind_ok _ _ _ _ _ (node_ok _ _ _ E1)). unfold cbind at 1, cget. set (c := ncls n).
  pose proof (In_chain _ _ _ I1 E1 M) as L. change (ncls n1) with c in L.
  assert (X : exists b, need_promote_hmap i n1 (chain_of (lc_hm s1 c) (n_hash n1)) s1 = COk s1 b).
  { unfold need_promote_hmap. destruct (chain_of (lc_hm s1 c) (n_hash n1)) as [|a t] eqn:Ch; [easy|].
    destruct (negb (a =? i) && negb (is_second i (a :: t))); [|exists false; reflexivity].
    assert (A : In a (chain_of (lc_hm s1 c) (n_hash n1))) by (rewrite Ch; now left).
    unfold chain_of in A. apply (I_ch _ I1) in A as (m & Ea & _).
    rewrite (bind_ok _ _ _ _ _ (sanitize_ok _ _ _ Ea (g_ref _ _ _ (I_node _ I1 _ _ Ea)))).
    rewrite (bind_ok _ _ _ _ _ (node_ok _ _ _ Ea)). eexists. reflexivity. }
  destruct X as [b X]. rewrite (bind_ok _ _ _ _ _ X).
  destruct b.
  2:{ exists s1. repeat split; auto; apply S1. }
  assert (A : negb (n_ref n1 <? 0) && n_mapped n1 = true).
  { apply andb_true_iff. split; [|exact M]. apply negb_true_iff, Z.ltb_ge. exact (g_ref _ _ _ (I_node _ I1 _ _ E1)). }
  rewrite (bind_ok _ _ _ _ _ (assert_ok _ _ A)). rewrite (bind_ok _ _ _ _ _ (chain_remove_ok s1 c i n1 E1 L)).
  unfold cbind at 1, cget, cput. eexists. split; [reflexivity|].
  assert (P : Permutation (chain_of (lc_hm s1 c) (n_hash n1)) (i :: del i (chain_of (lc_hm s1 c) (n_hash n1)))).
  { apply perm_del; [apply I1|easy]. }
  split.
  - eapply Same_trans; [exact S1|]. pose proof (Same_chain s1 c (n_hash n1) _ P) as Y.
    constructor; intros; try apply Y; cbn [lc_node lc_hm lc_q lc_next put_hm];
      (destruct (cls_dec c c0) as [<-|Nc]; [rewrite !cset_same|rewrite !cset_other by easy; try reflexivity]);
      cbn [set_chain hq_lru hq_sz hq_tbl hq_nslots hq_size]; try reflexivity.
    unfold chain_of in *. set (k0 := slot_of (lc_hm s1 c) (n_hash n1)) in *.
    change (slot_of _ (n_hash n1)) with k0.
    destruct (Z.eq_dec k k0) as [->|Nk]; [rewrite !fset_same|rewrite !fset_other by easy; reflexivity].
    cbn [set_chain hq_tbl]. fold k0. rewrite fset_same. exact P.
  - intros c'. cbn [put_hm lc_hm].
    destruct (cls_dec c c') as [<-|Nc]; [rewrite !cset_same|rewrite !cset_other by easy]; reflexivity.
Qed.

Lemma promote_ok s c i n now : Inv s -> lc_node s i = Some n -> ncls n = c ->
  exists s', hmapq_promote c i now s = COk s' tt /\ Same s s' /\
    (forall c', c' <> c -> hq_lru (lc_hm s' c') = hq_lru (lc_hm s c')) /\
    (now = true -> hq_lru (lc_hm s' c) =
       if is_front i (hq_lru (lc_hm s c)) then hq_lru (lc_hm s c) else i :: del i (hq_lru (lc_hm s c))).
Proof.
  intros I E K. unfold hmapq_promote. destruct (promote_lru_ok s c i n now I E K) as (s1 & R & S1 & L1 & L2).
  rewrite (bind_ok _ _ _ _ _ R). destruct (Same_node _ _ _ _ S1 E) as (n1 & E1 & St).
  rewrite (bind_ok _ _ _ _ _ (node_ok _ _ _ E1)). destruct (n_mapped n1) eqn:M.
  2:{ exists s1. split; [reflexivity|auto]. }
  assert (K1 : ncls n1 = c) by (apply still_fields in St; intuition congruence).
  destruct (promote_hlnk_ok s1 c i n1 (Same_Inv _ _ S1 I) E1 K1 M) as (s2 & R2 & S2 & L3).
  exists s2. split; [easy|]. split; [eapply Same_trans; eauto|]. split.
  - intros c' Nc. now rewrite L3, L1.
  - intros Hn. now rewrite L3, L2.
Qed.

(* --- lookup --- *)
Definition finds (s : lcache) (k : key) (i : Z) : Prop := exists n, lc_node s i = Some n /\ n_mapped n = true /\ n_key n = k.
Definition kcls (k : key) : cls := match k with KV _ => CV | KU _ => CU end.
Lemma find_in_ok s k l : Inv s -> key_wf k -> (forall i, In i l -> exists n, lc_node s i = Some n) ->
  exists r, find_in k (hash k) l s = COk s r /\
    match r with
    | Some i => In i l /\ exists n, lc_node s i = Some n /\ n_key n = k
    | None => forall i n, In i l -> lc_node s i = Some n -> n_key n <> k
    end.
Proof.
  intros I W. induction l as [|a t IH]; intros L; cbn [find_in].
  { exists None. split; [reflexivity|]. intros i n []. }
  destruct (L a (or_introl eq_refl)) as [n E]. pose proof (I_node _ I _ _ E) as G.
  rewrite (bind_ok _ _ _ _ _ (sanitize_ok _ _ _ E (g_ref _ _ _ G))). rewrite (bind_ok _ _ _ _ _ (node_ok _ _ _ E)).
  rewrite (g_hash _ _ _ G).
  pose proof (hkey_isequal_spec (n_key n) k (g_wf _ _ _ G) W) as Q.
  destruct (hkey_isequal (n_key n) (hash (n_key n)) k (hash k)) eqn:H.
  - exists (Some a). split; [reflexivity|]. split; [now left|]. exists n. split; [easy|]. now apply Q.
  - destruct IH as (r & R & P). { intros i Hi. apply L. now right. }
    exists r. split; [exact R|]. destruct r as [i|].
    + destruct P as [P1 P2]. split; [now right|easy].
    + intros i m [<-|Hi] Em Hk; [|eapply P; eauto]. assert (m = n) by congruence. subst m. apply Q in Hk. congruence.
Qed.
Lemma lookup_raw s k : Inv s -> key_wf k ->
  exists r, hmapq_lookup H64 (kcls k) k s = COk s r /\
    match r with Some i => finds s k i | None => forall i, ~ finds s k i end.
Proof.
  intros I W. unfold hmapq_lookup. unfold cbind at 1, cget. set (c := kcls k).
  destruct (find_in_ok s k (chain_of (lc_hm s c) (hash k)) I W) as (r & R & P).
  { intros i Hi. unfold chain_of in Hi. apply (I_ch _ I) in Hi as (n & E & _). eauto. }
  rewrite (bind_ok _ _ _ _ _ R). destruct r as [i|].
  - destruct P as [P (n & E & K)]. unfold chain_of in P. pose proof P as P'. apply (I_ch _ I) in P' as (m & Em & _ & M & _).
    assert (m = n) by congruence. subst m.
    rewrite (bind_ok _ _ _ _ _ (node_ok _ _ _ E)).
    assert (A : negb (n_ref n <? 0) && n_mapped n = true).
    { apply andb_true_iff. split; [|exact M]. apply negb_true_iff, Z.ltb_ge. exact (g_ref _ _ _ (I_node _ I _ _ E)). }
    rewrite (bind_ok _ _ _ _ _ (assert_ok _ _ A)). exists (Some i). split; [reflexivity|]. exists n. auto.
  - exists None. split; [reflexivity|]. intros i (n & E & M & K). apply (P i n); auto.
    pose proof (In_chain _ _ _ I E M) as X. rewrite (g_hash _ _ _ (I_node _ I _ _ E)), K in X.
    replace (ncls n) with c in X; [easy|]. unfold ncls, c, kcls. now rewrite K.
Qed.
Lemma Same_finds s s' k i : Same s s' -> (finds s' k i <-> finds s k i).
Proof.
  intros S. split; intros (n & E & M & K).
  - destruct (Same_node' _ _ _ _ S E) as (n' & E' & St). exists n'. apply still_fields in St. intuition congruence.
  - destruct (Same_node _ _ _ _ S E) as (n' & E' & St). exists n'. apply still_fields in St. intuition congruence.
Qed.
Lemma lookup_ok s k : Inv s -> key_wf k ->
  exists s' r, lcache_lookup H64 (kcls k) k s = COk s' r /\ Same s s' /\
    match r with Some i => finds s k i | None => forall i, ~ finds s k i end.
Proof.
  intros I W. unfold lcache_lookup. destruct (lookup_raw s k I W) as (r & R & P). rewrite (bind_ok _ _ _ _ _ R).
  destruct r as [i|].
  - destruct P as (n & E & M & K). assert (Kc : ncls n = kcls k) by (unfold ncls, kcls; now rewrite K).
    destruct (promote_ok s (kcls k) i n false I E Kc) as (s' & R' & S & _).
    rewrite (bind_ok _ _ _ _ _ R'). exists s', (Some i). split; [reflexivity|]. split; [easy|]. exists n. auto.
  - exists s, None. split; [reflexivity|]. split; [apply Same_refl|easy].
Qed.

(* --- which objects may be dropped --- *)
Definition quiet (s : lcache) (i : Z) (n : node) : bool :=
  negb (n_pinned n) && negb (n_inq n) && (n_ref n =? 0) &&
  (if is_inode n then (n_nopen n =? 0) && (match dq_l (lc_q s (QIno i)) with [] => true | _ => false end) else true).
Lemma isevictable_ok s c i n : Inv s -> lc_node s i = Some n -> ncls n = c ->
  isevictable c i s = COk s (quiet s i n).
Proof.
  intros I E K. pose proof (I_node _ I _ _ E) as G.
  assert (L : lni_isevictable i s = COk s (negb (n_pinned n) && negb (n_inq n) && (n_ref n =? 0))).
  { unfold lni_isevictable. rewrite (bind_ok _ _ _ _ _ (node_ok _ _ _ E)). destruct (n_pinned n); [reflexivity|].
    rewrite (bind_ok _ _ _ _ _ (sanitize_ok _ _ _ E (g_ref _ _ _ G))). reflexivity. }
  unfold isevictable, quiet, ncls in *. destruct c.
  - rewrite (bind_ok _ _ _ _ _ (node_ok _ _ _ E)). destruct (is_inode n) eqn:In.
    + unfold ii_isevictable. rewrite (bind_ok _ _ _ _ _ (node_ok _ _ _ E)). unfold cbind at 1, cget.
      pose proof (g_nopen _ _ _ G). destruct (Z.ltb_spec 0 (n_nopen n)).
      { replace (n_nopen n =? 0) with false by (symmetry; apply Z.eqb_neq; lia). now rewrite andb_false_r. }
      replace (n_nopen n =? 0) with true by (symmetry; apply Z.eqb_eq; lia). cbn [andb].
      rewrite (I_qsz _ I). destruct (dq_l (lc_q s (QIno i))) as [|a t].
      { rewrite andb_true_r. exact L. }
      rewrite andb_false_r, zlen_cons. pose proof (zlen_nonneg _ t). destruct (Z.ltb_spec 0 (1 + zlen t)); [reflexivity|lia].
    + rewrite andb_true_r. exact L.
  - unfold is_inode. destruct (n_key n); [discriminate|]. rewrite andb_true_r. exact L.
Qed.
End Proofs.
