(* C40.  What load-time verification of directory and attribute nodes guarantees about the reads
   of later lookups and listings, for every byte content of a node. *)
From Coq Require FinFun.
From Verif Require Import Base DirNodeModel DirNodeProofs XattrModel XattrProofs VerifyModel.

Lemma rd_some : forall b a n, 0 <= a -> a + n <= zlen b -> rd b a n = Some (zsub a n b).
Proof. intros. unfold rd. replace (_ && _) with true by lia. reflexivity. Qed.
Lemma rd_inv : forall b a n x, rd b a n = Some x -> 0 <= a /\ a + n <= zlen b /\ x = zsub a n b.
Proof. intros b a n x. unfold rd. destruct (_ && _) eqn:E; [|discriminate]. intros H. assert (x = zsub a n b) by congruence. subst. repeat split; lia. Qed.
Lemma rdz_some : forall b a n, 0 <= a -> a + n <= zlen b -> rdz b a n = Some (le_dec (zsub a n b)).
Proof. intros. unfold rdz. rewrite rd_some by assumption. reflexivity. Qed.
Lemma rdz_inv : forall b a n x, rdz b a n = Some x -> 0 <= a /\ a + n <= zlen b.
Proof. intros b a n x. unfold rdz, bnd. destruct (rd b a n) eqn:E; [|discriminate]. intros _. apply rd_inv in E. tauto. Qed.

Lemma zsub_step : forall (b : bytes) a n, 0 <= a -> 0 <= n -> a + 1 + n <= zlen b ->
  zsub a (1 + n) b = znth b a 0 :: zsub (a + 1) n b.
Proof.
  intros b a n Ha Hn Hl. apply (znth_ext _ 0).
  - rewrite zlen_cons, !zlen_zsub by lia. lia.
  - rewrite zlen_zsub by lia. intros i Hi. rewrite znth_zsub by lia.
    change (znth b a 0 :: zsub (a + 1) n b) with ([znth b a 0] ++ zsub (a + 1) n b). rewrite znth_app by lia.
    change (zlen [znth b a 0]) with 1. destruct (Z.ltb_spec i 1) as [L|L].
    + replace i with 0 by lia. rewrite Z.add_0_r. reflexivity.
    + rewrite znth_zsub by lia. f_equal. lia.
Qed.
Lemma zsub_one : forall (b : bytes) a, 0 <= a -> a + 1 <= zlen b -> zsub a 1 b = [znth b a 0].
Proof. intros b a Ha Hl. change 1 with (1 + 0) at 1. rewrite zsub_step by lia. reflexivity. Qed.
Lemma rcmp_some : forall s b a, 0 <= a -> a + zlen s <= zlen b -> rcmp b a s = Some (bytes_eqb (zsub a (zlen s) b) s).
Proof.
  induction s as [|c s IH]; intros b a Ha Hl; cbn [rcmp].
  - unfold zsub. rewrite ztake_0 by reflexivity. reflexivity.
  - rewrite zlen_cons in Hl |- *. pose proof (zlen_nonneg _ s). rewrite rd_some by lia. cbn [bnd].
    rewrite zsub_one, zsub_step by lia. cbn [bytes_eqb]. rewrite andb_true_r. destruct (znth b a 0 =? c) eqn:E; [|reflexivity].
    cbn [andb]. apply IH; lia.
Qed.

(* ---- directory nodes ---- *)
Section Dir.
Variable b : bytes.
Hypothesis L : zlen b = DTN_SIZE.

(* a slot in use *)
Definition used (e : dent_raw) : Prop := 0 < d_ino e /\ 0 < d_len e.
(* the name of every entry in use ends before the node does *)
Definition names_inside : Prop := forall n s e, dtn_nde b = Some n -> Z.of_nat s < n -> dtn_entry b s = Some e -> used e ->
  0 <= d_pos e /\ d_pos e + d_len e <= DTN_NB.

Lemma entry_iff : forall s, (exists e, dtn_entry b s = Some e) <-> Z.of_nat s < 480.
Proof.
  intros s. unfold dtn_entry, DTN_DATA. unfold DTN_SIZE in L. split.
  - intros [e H]. destruct (rdz b (512 + 16 * Z.of_nat s) 8) eqn:E; [|discriminate]. cbn [bnd] in H.
    destruct (rdz b (512 + 16 * Z.of_nat s + 8) 4) eqn:E2; [|discriminate]. cbn [bnd] in H.
    destruct (rdz b (512 + 16 * Z.of_nat s + 12) 2) eqn:E3; [|discriminate]. cbn [bnd] in H.
    destruct (rdz b (512 + 16 * Z.of_nat s + 14) 2) eqn:E4; [|discriminate]. apply rdz_inv in E4. lia.
  - intros H. rewrite !rdz_some by lia. cbn [bnd]. eauto.
Qed.
Lemma act_used : forall e, de_act e = true <-> used e.
Proof. intros. unfold de_act, used. lia. Qed.

Lemma verify_des_inv : forall k s, verify_des b s k = Some true ->
  forall t, (s <= t < s + k)%nat -> exists e, dtn_entry b t = Some e /\ (used e -> de_valid e = true).
Proof.
  induction k as [|k IH]; intros s H t Ht; [lia|]. cbn [verify_des] in H.
  destruct (dtn_entry b s) as [e|] eqn:E; [|discriminate]. cbn [bnd] in H.
  destruct (de_act e && negb (de_valid e)) eqn:V; [discriminate|]. destruct (Nat.eq_dec t s) as [->|N].
  - exists e. split; [exact E|]. intros U. apply act_used in U. rewrite U in V. destruct (de_valid e); [reflexivity|discriminate].
  - apply (IH (S s) H). lia.
Qed.
Lemma verified_slots : verify_dtree_node b = Some true -> exists n, dtn_nde b = Some n /\
  forall t, Z.of_nat t < n -> exists e, dtn_entry b t = Some e /\ (used e -> de_valid e = true).
Proof.
  unfold verify_dtree_node. destruct (rdz b 16 8) as [ino|]; [|discriminate]. cbn [bnd]. destruct (ino =? 0); [discriminate|].
  destruct (rdz b 32 4) as [idx|]; [|discriminate]. cbn [bnd]. destruct (negb _); [discriminate|].
  destruct (dtn_nde b) as [n|]; [|discriminate]. cbn [bnd]. destruct (verify_des b 0 (Z.to_nat n)) as [[|]|] eqn:E; try discriminate.
  intros _. exists n. split; [reflexivity|]. intros t Ht. apply (verify_des_inv _ _ E). lia.
Qed.

Lemma search_safe : forall nm h k s, (forall t, (s <= t < s + k)%nat -> exists e, dtn_entry b t = Some e /\
    (used e -> 0 <= d_pos e /\ d_pos e + d_len e <= DTN_NB)) -> search_des b s k nm h <> None.
Proof.
  induction k as [|k IH]; intros s H; [discriminate|]. cbn [search_des]. destruct (H s ltac:(lia)) as [e [E U]]. rewrite E. cbn [bnd].
  assert (R : search_des b (S s) k nm h <> None) by (apply IH; intros t Ht; apply H; lia).
  destruct (de_act e) eqn:A; [|exact R]. cbn [andb]. destruct (Z.land _ _ =? _); [|exact R]. cbn [andb].
  destruct (Z.eqb_spec (d_len e) (zlen nm)) as [Q|Q]; [|exact R]. apply act_used in A. specialize (U A).
  unfold DTN_NB, DTN_SIZE in *. rewrite rcmp_some by (unfold DTN_DATA; lia). cbn [bnd]. destruct (bytes_eqb _ _); [discriminate|exact R].
Qed.
Lemma list_safe : forall k s, (forall t, (s <= t < s + k)%nat -> exists e, dtn_entry b t = Some e /\
    (used e -> 0 <= d_pos e /\ d_pos e + d_len e <= DTN_NB)) -> list_des b s k <> None.
Proof.
  induction k as [|k IH]; intros s H; [discriminate|]. cbn [list_des]. destruct (H s ltac:(lia)) as [e [E U]]. rewrite E. cbn [bnd].
  assert (R : list_des b (S s) k <> None) by (apply IH; intros t Ht; apply H; lia).
  destruct (de_act e) eqn:A; [|exact R]. apply act_used in A. specialize (U A).
  unfold DTN_NB, DTN_SIZE in *. rewrite rd_some by (unfold DTN_DATA; lia). cbn [bnd]. destruct (list_des b (S s) k); [discriminate|exact R].
Qed.
Lemma child_safe : forall ord, child_dtree_node b ord <> None.
Proof. intros. unfold child_dtree_node. unfold DTN_SIZE in L. rewrite rd_some by lia. discriminate. Qed.
End Dir.

(* A verified node whose names end inside it: no lookup, listing or descent reads outside. *)
Theorem dir_reads_in_bounds_partial : forall b, zlen b = DTN_SIZE -> verify_dtree_node b = Some true -> names_inside b ->
  (forall name hash, search_dtree_node b name hash <> None) /\ list_dtree_node b <> None /\ (forall ord, child_dtree_node b ord <> None).
Proof.
  intros b L V N. destruct (verified_slots b V) as [n [E H]].
  assert (G : forall t, (0 <= t < 0 + Z.to_nat n)%nat -> exists e, dtn_entry b t = Some e /\ (used e -> 0 <= d_pos e /\ d_pos e + d_len e <= DTN_NB)).
  { intros t Ht. destruct (H t) as [e [E1 _]]; [lia|]. exists e. split; [exact E1|]. exact (N n t e E ltac:(lia) E1). }
  unfold search_dtree_node, list_dtree_node. rewrite E. cbn [bnd]. split; [|split].
  - intros. apply search_safe; auto.
  - apply list_safe; auto.
  - apply child_safe. exact L.
Qed.
Print Assumptions dir_reads_in_bounds_partial.
(* What verification itself guarantees: the number of entries fits, each entry in use has a known
   file type, a name of at most 511 bytes that starts inside the name area.  Only the end is open:
   reads go at most 510 bytes too far. *)
Theorem dir_overrun_bounded : forall b n s e, zlen b = DTN_SIZE -> verify_dtree_node b = Some true ->
  dtn_nde b = Some n -> Z.of_nat s < n -> dtn_entry b s = Some e -> used e ->
  n <= 480 /\ d_ino e <> 0 /\ 1 <= d_len e <= 511 /\ 1 <= d_pos e < 7680 /\ DTN_DATA + d_pos e + d_len e <= DTN_SIZE + 510.
Proof.
  intros b n s e L V E Hs Ee U. destruct (verified_slots b V) as [n' [E' H]]. assert (n' = n) by congruence. subst n'.
  split.
  - destruct (Z_le_gt_dec n 480) as [G|G]; [exact G|exfalso]. destruct (H 480%nat) as [x [X _]]; [lia|].
    assert (Z.of_nat 480 < 480) by (apply (entry_iff b L); eauto). lia.
  - destruct (H s Hs) as [e' [E1 Y]]. assert (e' = e) by congruence. subst e'. specialize (Y U).
    unfold de_valid, DTN_NAME_MAX, DTN_NB in Y. unfold DTN_DATA, DTN_SIZE. lia.
Qed.
Print Assumptions dir_overrun_bounded.

(* ---- nodes the file system itself writes ---- *)
(* the stored form: header, directory, parent, index, counts, reserved, children, data *)
Definition dtn_store (hdr : bytes) (ino : Z) (rsv chl : bytes) (n : dnode) : bytes :=
  (hdr ++ le_enc 8 (u64 ino) ++ le_enc 8 (u64 (dn_parent n)) ++ le_enc 4 (u32 (dn_index n)) ++
   le_enc 2 (u16 (dn_nde n)) ++ le_enc 2 (u16 (dn_nnb n)) ++ le_enc 4 (u32 (dn_nact n)) ++ rsv ++ chl) ++ dn_data n.
Definition name_chars (nm : bytes) : Prop := Forall (fun c => c <> 0 /\ c <> 47 /\ 0 <= c < 256) nm.
Definition dent_legal (e : dent) : Prop := dent_ok e /\ name_chars (e_name e) /\ In (e_dt e) [1; 2; 4; 6; 8; 10; 12; 14].
(* nodes made by adding and removing entries *)
Inductive dbuilt : dnode -> Prop :=
| db_new : forall i p, dbuilt (dtn_setup i p)
| db_ins : forall n e, dbuilt n -> dent_legal e -> dtn_may_insert n (elen e) = true ->
    dbuilt (dtn_insert n (e_name e) (e_hash e) (e_ino e) (e_dt e))
| db_rem : forall n nm h s, dbuilt n -> dtn_search n nm h = Some s -> dbuilt (dtn_remove n s).

Definition all_legal (l : list dslot) : Prop := forall s e, nth s l None = Some e -> dent_legal e.
Lemma dbuilt_rep : forall n, dbuilt n -> exists l pos, rep n l pos /\ all_legal l.
Proof.
  induction 1 as [i p|n e B [l [pos [R A]]] Le M|n nm h s B [l [pos [R A]]] S].
  - exists [], (fun _ => 0). split; [apply rep_setup|]. intros s e H. destruct s; discriminate.
  - eexists _, _. split; [apply (rep_insert n l pos e R (proj1 Le) M)|]. intros t g. rewrite slots_insert_nth.
    destruct (t =? slot_new l)%nat; [congruence|]. apply A.
  - rewrite (rep_search n l pos R) in S. apply find_slot_some in S. destruct S as [S1 [S2 _]].
    destruct (nth s l None) as [e|] eqn:E; [|discriminate]. eexists _, _. split; [apply (rep_remove n l pos s e R E)|].
    intros t g. unfold slots_remove. rewrite slots_trim_nth, upd_nth. destruct (t =? s)%nat; [discriminate|]. apply A.
Qed.

Section Stored.
Variables (hdr : bytes) (ino : Z) (rsv chl : bytes) (n : dnode) (l : list dslot) (pos : nat -> Z).
Hypotheses (Lh : zlen hdr = 16) (Lr : zlen rsv = 20) (Lc : zlen chl = 448).
Hypotheses (R : rep n l pos) (A : all_legal l).
Let b := dtn_store hdr ino rsv chl n.

Lemma head_len : zlen (hdr ++ le_enc 8 (u64 ino) ++ le_enc 8 (u64 (dn_parent n)) ++ le_enc 4 (u32 (dn_index n)) ++
   le_enc 2 (u16 (dn_nde n)) ++ le_enc 2 (u16 (dn_nnb n)) ++ le_enc 4 (u32 (dn_nact n)) ++ rsv ++ chl) = 512.
Proof. rewrite !zlen_app, !zlen_le_enc. lia. Qed.
Lemma store_len : zlen b = DTN_SIZE.
Proof. unfold b, dtn_store. rewrite zlen_app, head_len, (r_len _ _ _ R). reflexivity. Qed.
Lemma store_data : forall o k, 0 <= o -> zsub (DTN_DATA + o) k b = zsub o k (dn_data n).
Proof. intros o k Ho. unfold b, dtn_store, DTN_DATA. rewrite zsub_app_r by (rewrite head_len; lia). rewrite head_len. f_equal. lia. Qed.
Lemma fit : 0 <= dn_nde n <= 480 /\ 0 <= dn_nnb n <= 7680.
Proof. pose proof (r_fit _ _ _ R). pose proof (r_nde _ _ _ R). pose proof (rep_nnb_nonneg n l pos R). lia. Qed.
Lemma store_nde : dtn_nde b = Some (dn_nde n).
Proof.
  unfold dtn_nde. pose proof fit. rewrite rdz_some by (rewrite ?store_len; unfold DTN_SIZE; lia). f_equal.
  unfold b, dtn_store. rewrite <- app_assoc. rewrite zsub_app_r by lia.
  repeat (rewrite <- app_assoc; rewrite zsub_app_r by (rewrite !zlen_le_enc; lia)). rewrite !zlen_le_enc, Lh.
  rewrite <- !app_assoc, zsub_prefix by (rewrite zlen_le_enc; reflexivity). unfold u16. rewrite le_dec_enc; cbn; lia.
Qed.
Lemma store_nnb : dtn_nnb b = Some (dn_nnb n).
Proof.
  unfold dtn_nnb. pose proof fit. rewrite rdz_some by (rewrite ?store_len; unfold DTN_SIZE; lia). f_equal.
  unfold b, dtn_store. rewrite <- app_assoc. rewrite zsub_app_r by lia.
  do 4 (rewrite <- app_assoc; rewrite zsub_app_r by (rewrite !zlen_le_enc; lia)). rewrite !zlen_le_enc, Lh.
  rewrite <- !app_assoc, zsub_prefix by (rewrite zlen_le_enc; reflexivity). unfold u16. rewrite le_dec_enc; cbn; lia.
Qed.
Lemma store_ino : rdz b 16 8 = Some (u64 ino).
Proof.
  rewrite rdz_some by (rewrite ?store_len; unfold DTN_SIZE; lia). f_equal.
  unfold b, dtn_store. rewrite <- app_assoc. rewrite zsub_app_r by lia. rewrite Lh.
  rewrite <- !app_assoc, zsub_prefix by (rewrite zlen_le_enc; reflexivity). unfold u64. rewrite le_dec_enc; cbn; lia.
Qed.
Lemma store_idx : rdz b 32 4 = Some (u32 (dn_index n)).
Proof.
  rewrite rdz_some by (rewrite ?store_len; unfold DTN_SIZE; lia). f_equal.
  unfold b, dtn_store. rewrite <- app_assoc. rewrite zsub_app_r by lia.
  do 2 (rewrite <- app_assoc; rewrite zsub_app_r by (rewrite !zlen_le_enc; lia)). rewrite !zlen_le_enc, Lh.
  rewrite <- !app_assoc, zsub_prefix by (rewrite zlen_le_enc; reflexivity). unfold u32. rewrite le_dec_enc; cbn; lia.
Qed.
Lemma store_entry : forall s, (s < length l)%nat -> dtn_entry b s =
  Some (mkDr (de_ino (dn_data n) s) (de_hash_dt (dn_data n) s) (de_name_len (dn_data n) s) (de_name_pos (dn_data n) s)).
Proof.
  intros s Hs. pose proof fit. pose proof (r_nde _ _ _ R). unfold dtn_entry. pose proof store_len. unfold DTN_SIZE in *.
  rewrite !rdz_some by (unfold DTN_DATA; lia). cbn [bnd]. rewrite <- !Z.add_assoc, !store_data by lia. reflexivity.
Qed.

Lemma rep_pos : forall s e, nth s l None = Some e -> 1 <= pos s /\ pos s + elen e <= 7680 /\ 1 <= elen e <= 255.
Proof.
  intros s e H. destruct (r_ent _ _ _ R s e H) as [[_ [_ O]] [P1 [P2 _]]]. pose proof (nth_some_lt _ _ _ H).
  pose proof (rep_slot_in n l pos R s ltac:(lia)). lia.
Qed.

Lemma store_verify_des : forall k s, (s + k <= length l)%nat -> verify_des b s k = Some true.
Proof.
  induction k as [|k IH]; intros s H; [reflexivity|]. cbn [verify_des]. rewrite store_entry by lia. cbn [bnd].
  replace (_ && _) with false; [apply IH; lia|]. symmetry. unfold de_act. cbn [d_ino d_len].
  pose proof (rep_active n l pos R s ltac:(lia)) as Ra. unfold de_isactive in Ra. rewrite Ra.
  destruct (nth s l None) as [e|] eqn:E; [|reflexivity]. cbn [andb]. apply negb_false_iff.
  destruct (rep_fields n l pos R s e E) as (F1 & F2 & F3 & F4 & F5). destruct (A s e E) as [[D1 [D2 D3]] [_ D4]].
  pose proof (rep_pos s e E). unfold de_valid. cbn [d_ino d_hdt d_len d_pos]. unfold de_dt in F2. rewrite F1, F2, F4, F5.
  unfold DTN_NAME_MAX, DTN_NB. assert (K : dt_known (e_dt e) = true).
  { unfold dt_known. apply existsb_exists. exists (e_dt e). split; [exact D4|apply Z.eqb_refl]. }
  rewrite K. lia.
Qed.

(* the names fill the name area: a byte of it that no entry covers would be one too many *)
Definition cells (s : nat) : list Z := match nth s l None with Some e => map Z.of_nat (seq (Z.to_nat (pos s)) (Z.to_nat (elen e))) | None => [] end.
Lemma in_cells : forall s x, In x (cells s) <-> exists e, nth s l None = Some e /\ pos s <= x < pos s + elen e.
Proof.
  intros s x. unfold cells. destruct (nth s l None) as [e|] eqn:E.
  - pose proof (rep_pos s e E). rewrite in_map_iff. split.
    + intros [k [<- K]]. apply in_seq in K. exists e. split; [reflexivity|lia].
    + intros [e' [X K]]. assert (e' = e) by congruence. subst e'. exists (Z.to_nat x). split; [lia|]. apply in_seq. lia.
  - split; [contradiction|]. intros [e [X _]]. discriminate.
Qed.
Lemma cells_nodup : forall ss, NoDup ss -> NoDup (flat_map cells ss).
Proof.
  induction ss as [|s ss IH]; intros N; [constructor|]. inversion N as [|x y N1 N2 X]; subst. cbn [flat_map].
  assert (Q : forall p q : list Z, NoDup p -> NoDup q -> (forall x, In x p -> ~ In x q) -> NoDup (p ++ q)).
  { induction p as [|z p IHp]; intros q Np Nq D; [exact Nq|]. inversion Np; subst. cbn [app]. constructor.
    - rewrite in_app_iff. intros [Y|Y]; [contradiction|]. exact (D z (or_introl eq_refl) Y).
    - apply IHp; auto. intros w W. apply D. right. exact W. }
  apply Q.
  - unfold cells. destruct (nth s l None); [|constructor]. apply FinFun.Injective_map_NoDup; [intros u v X0; lia|]. apply seq_NoDup.
  - apply IH. exact N2.
  - intros x Hx Hy. apply in_flat_map in Hy. destruct Hy as [t [Ht Hy]]. apply in_cells in Hx. apply in_cells in Hy.
    destruct Hx as [e [E1 X1]], Hy as [g [E2 X2]]. assert (s <> t) by (intros ->; contradiction).
    destruct (r_disj _ _ _ R s t e g H E1 E2); lia.
Qed.
Lemma cells_length : forall k s, (s + k <= length l)%nat ->
  zlen (flat_map cells (seq s k)) = zsum (map olen (firstn k (skipn s l))).
Proof.
  induction k as [|k IH]; intros s H; [reflexivity|]. cbn [seq flat_map].
  assert (E : skipn s l = nth s l None :: skipn (S s) l).
  { clear -H. assert (H1 : (s < length l)%nat) by lia. clear H. revert s H1. induction l as [|x m IHm]; intros s H; cbn [length] in H; [lia|].
    destruct s; [reflexivity|]. cbn [skipn nth]. rewrite (IHm s) by lia. destruct m; reflexivity. }
  rewrite E. cbn [firstn map]. rewrite zsum_cons, zlen_app, (IH (S s)) by lia. f_equal.
  unfold cells. destruct (nth s l None) as [e|] eqn:N; [|reflexivity]. pose proof (rep_pos s e N).
  rewrite zlen_map. unfold zlen. rewrite seq_length. cbn [olen]. lia.
Qed.
Lemma covered : forall x, nbeg n <= x < 7680 -> exists s e, nth s l None = Some e /\ pos s <= x < pos s + elen e.
Proof.
  intros x Hx. set (ss := seq 0 (length l)).
  assert (Ln : zlen (flat_map cells ss) = dn_nnb n).
  { unfold ss. rewrite cells_length by lia. cbn [skipn]. rewrite firstn_all. symmetry. apply (r_nnb _ _ _ R). }
  destruct (in_dec Z.eq_dec x (flat_map cells ss)) as [I|I].
  - apply in_flat_map in I. destruct I as [s [_ I]]. apply in_cells in I. destruct I as [e I]. exists s, e. exact I.
  - exfalso. pose proof fit as F. assert (N : NoDup (x :: flat_map cells ss)) by (constructor; [exact I|apply cells_nodup, seq_NoDup]).
    assert (Y : incl (x :: flat_map cells ss) (map Z.of_nat (seq (Z.to_nat (nbeg n)) (Z.to_nat (dn_nnb n))))).
    { intros y Hy. apply in_map_iff. exists (Z.to_nat y). unfold nbeg, DN_NBUF in *.
      assert (nbeg n <= y < 7680).
      { destruct Hy as [<-|Hy]; [exact Hx|]. apply in_flat_map in Hy. destruct Hy as [s [_ Hy]]. apply in_cells in Hy. destruct Hy as [e [E Hy]].
        destruct (r_ent _ _ _ R s e E) as [_ [P1 _]]. pose proof (rep_pos s e E). lia. }
      unfold nbeg, DN_NBUF in *. split; [lia|]. apply in_seq. lia. }
    pose proof (NoDup_incl_length N Y) as Z0. rewrite map_length, seq_length in Z0. cbn [length] in Z0. unfold zlen in Ln. lia.
Qed.
Lemma name_byte : forall x, nbeg n <= x < 7680 -> znth (dn_data n) x 0 <> 0 /\ znth (dn_data n) x 0 <> 47 /\ 0 <= znth (dn_data n) x 0 < 256.
Proof.
  intros x Hx. destruct (covered x Hx) as [s [e [E C]]]. destruct (r_ent _ _ _ R s e E) as [_ [_ [P2 [_ Q]]]].
  pose proof (rep_pos s e E). pose proof (r_len _ _ _ R) as Ld. destruct (A s e E) as [_ [K _]].
  replace (znth (dn_data n) x 0) with (znth (e_name e) (x - pos s) 0).
  - unfold name_chars in K. rewrite Forall_forall in K. apply K. unfold znth. apply nth_In. unfold elen, zlen in *. lia.
  - rewrite <- Q, znth_zsub by lia. f_equal. lia.
Qed.
Lemma store_verify_chars : forall k a, nbeg n <= a -> a + Z.of_nat k = 7680 -> verify_chars b (DTN_DATA + a) k = Some true.
Proof.
  pose proof fit as F. pose proof store_len as SL. unfold DTN_SIZE in SL.
  induction k as [|k IH]; intros a Ha E; [reflexivity|]. cbn [verify_chars]. unfold nbeg, DN_NBUF in *.
  rewrite rdz_some by (unfold DTN_DATA; lia). cbn [bnd]. rewrite store_data by lia. rewrite zsub_one by (rewrite ?(r_len _ _ _ R); lia).
  destruct (name_byte a) as [N1 [N2 N3]]; [unfold nbeg, DN_NBUF; lia|]. cbn [le_dec]. rewrite Z.mul_0_r, Z.add_0_r.
  replace (_ || _) with false by lia. rewrite <- Z.add_assoc. apply IH; lia.
Qed.

Lemma store_verified : 0 < ino < 2 ^ 64 -> 1 <= dn_index n <= DTN_INDEX_MAX -> verify_dtree_node b = Some true.
Proof.
  intros Hi Hx. unfold verify_dtree_node. rewrite store_ino, store_idx, store_nde, store_nnb. cbn [bnd]. unfold DTN_INDEX_MAX in *.
  unfold u64, u32. rewrite !Z.mod_small by lia. replace (ino =? 0) with false by lia. replace (_ && _) with true by lia. cbn [negb].
  rewrite store_verify_des by (pose proof (r_nde _ _ _ R); lia). cbn [bnd negb]. pose proof fit.
  replace (DTN_DATA + DTN_NB - dn_nnb n) with (DTN_DATA + (7680 - dn_nnb n)) by (unfold DTN_NB; lia).
  apply store_verify_chars; unfold nbeg, DN_NBUF; lia.
Qed.
Lemma store_search_des : forall nm h k s, (s + k <= length l)%nat ->
  search_des b s k nm h = Some (find (fun s => de_isactive (dn_data n) s && de_has_name (dn_data n) s nm h) (seq s k)).
Proof.
  induction k as [|k IH]; intros s H; [reflexivity|]. cbn [search_des seq find]. rewrite store_entry by lia. cbn [bnd].
  change (de_act _) with (de_isactive (dn_data n) s). cbn [d_hdt d_len d_pos]. rewrite IH by lia. unfold de_has_name.
  change (Z.land (de_hash_dt (dn_data n) s) 16777215) with (de_name_hash (dn_data n) s). unfold HASH_MASK.
  pose proof (rep_active n l pos R s ltac:(lia)) as Ra. destruct (de_isactive (dn_data n) s); [|reflexivity]. cbn [andb].
  destruct (nth s l None) as [e|] eqn:E; [|discriminate]. destruct (_ =? Z.land h _); [|reflexivity]. cbn [andb].
  destruct (rep_fields n l pos R s e E) as (_ & _ & _ & F4 & F5). pose proof (rep_pos s e E).
  destruct (Z.eqb_spec (de_name_len (dn_data n) s) (zlen nm)) as [Q|Q]; [|reflexivity]. cbn [andb].
  pose proof store_len as SL. unfold DTN_SIZE in SL.
  rewrite rcmp_some by (unfold DTN_DATA; lia). cbn [bnd]. rewrite store_data by lia. destruct (bytes_eqb _ _); reflexivity.
Qed.
Lemma store_inside : names_inside b.
Proof.
  intros m s e E Hs Ee U. rewrite store_nde in E. assert (m = dn_nde n) by congruence. subst m. pose proof (r_nde _ _ _ R).
  rewrite store_entry in Ee by lia. assert (X : e = mkDr (de_ino (dn_data n) s) (de_hash_dt (dn_data n) s) (de_name_len (dn_data n) s) (de_name_pos (dn_data n) s)) by congruence.
  subst e. apply act_used in U. change (de_act _) with (de_isactive (dn_data n) s) in U. rewrite (rep_active n l pos R s) in U by lia.
  destruct (nth s l None) as [e|] eqn:E1; [|discriminate]. destruct (rep_fields n l pos R s e E1) as (_ & _ & _ & F4 & F5).
  pose proof (rep_pos s e E1). cbn [d_pos d_len]. unfold DTN_NB. lia.
Qed.
End Stored.

(* Nodes the file system writes pass verification when read back, lookups in them stay inside and
   give what they gave in memory. *)
Theorem own_dir_nodes_verify : forall hdr ino rsv chl n, dbuilt n -> zlen hdr = 16 -> zlen rsv = 20 -> zlen chl = 448 ->
  0 < ino < 2 ^ 64 -> 1 <= dn_index n <= DTN_INDEX_MAX ->
  let b := dtn_store hdr ino rsv chl n in
  verify_dtree_node b = Some true /\ (forall nm h, search_dtree_node b nm h = Some (dtn_search n nm h)) /\ list_dtree_node b <> None.
Proof.
  intros hdr ino rsv chl n B Lh Lr Lc Hi Hx b. destruct (dbuilt_rep n B) as [l [pos [R A]]].
  assert (V : verify_dtree_node b = Some true) by exact (store_verified hdr ino rsv chl n l pos Lh Lr Lc R A Hi Hx).
  split; [exact V|]. split.
  - intros nm h. unfold search_dtree_node, b. rewrite (store_nde hdr ino rsv chl n l pos Lh Lr Lc R). cbn [bnd].
    rewrite (store_search_des hdr ino rsv chl n l pos Lh Lr Lc R) by (pose proof (r_nde _ _ _ R); lia). reflexivity.
  - destruct (dir_reads_in_bounds_partial b (store_len hdr ino rsv chl n l pos Lh Lr Lc R) V (store_inside hdr ino rsv chl n l pos Lh Lr Lc R)) as [_ [X _]]. exact X.
Qed.
Print Assumptions own_dir_nodes_verify.
(* a node with the names "ab" and "c" in it *)
Definition built_ex : dnode := dtn_insert (dtn_insert (dtn_setup 1 (-1)) [97; 98] 5 7 8) [99] 6 9 4.
Example own_dir_ex : dbuilt built_ex /\ dtn_search built_ex [99] 6 = Some 1%nat.
Proof.
  split; [|vm_compute; reflexivity]. unfold built_ex.
  assert (L1 : dent_legal (mkDent 7 8 5 [97; 98])).
  { split; [split; [cbn; lia|split; [cbn; lia|split; vm_compute; discriminate]]|]. split; [repeat constructor; lia|cbn; tauto]. }
  assert (L2 : dent_legal (mkDent 9 4 6 [99])).
  { split; [split; [cbn; lia|split; [cbn; lia|split; vm_compute; discriminate]]|]. split; [repeat constructor; lia|cbn; tauto]. }
  pose proof (db_ins (dtn_setup 1 (-1)) _ (db_new 1 (-1)) L1 ltac:(vm_compute; reflexivity)) as B1. cbn [e_name e_hash e_ino e_dt] in B1.
  pose proof (db_ins _ _ B1 L2 ltac:(vm_compute; reflexivity)) as B2. cbn [e_name e_hash e_ino e_dt] in B2. exact B2.
Qed.

(* A verified node and a lookup that reads past its end: verification looks at where a name
   starts, not at where it ends. *)
Definition bad_node (nde nnb : Z) (entry : bytes) (last : Z) : bytes :=
  zrepeat 0 16 ++ le_enc 8 2 ++ zrepeat 0 8 ++ le_enc 4 1 ++ le_enc 2 nde ++ le_enc 2 nnb ++ zrepeat 0 472 ++
  entry ++ zrepeat 0 (7679 - zlen entry) ++ [last].
Theorem dir_lookup_in_bounds_refuted : exists b name hash, zlen b = DTN_SIZE /\ all_bytes b /\
  verify_dtree_node b = Some true /\ search_dtree_node b name hash = None /\ list_dtree_node b = None.
Proof.
  exists (bad_node 1 1 (de_bytes 5 8 0 2 7679) 97), [97; 98], 0. split; [vm_compute; reflexivity|]. split.
  - apply Forall_forall. intros x H.
    assert (F : forallb (fun x => (0 <=? x) && (x <? 256)) (bad_node 1 1 (de_bytes 5 8 0 2 7679) 97) = true) by (vm_compute; reflexivity).
    rewrite forallb_forall in F. specialize (F x H). cbv beta in F. unfold is_byte. lia.
  - repeat split; vm_compute; reflexivity.
Qed.
Print Assumptions dir_lookup_in_bounds_refuted.
(* Verification itself reads past the end: the number of entries is not checked. *)
Theorem dir_verify_in_bounds_refuted : exists b, zlen b = DTN_SIZE /\ verify_dtree_node b = None.
Proof. exists (bad_node 481 0 [] 0). split; vm_compute; reflexivity. Qed.
Print Assumptions dir_verify_in_bounds_refuted.

(* ---- attribute nodes ---- *)
Section Xa.
Variable b : bytes.
Hypothesis L : zlen b = XAN_SIZE.
Hypothesis Bt : all_bytes b.

(* the units at which the walk over a node of n units finds entries *)
Inductive at_unit (n : Z) : Z -> Prop :=
| au_0 : at_unit n 0
| au_next : forall i x, at_unit n i -> i < n -> xan_entry b i = Some x -> at_unit n (i + xsize x).
(* every entry ends inside the node *)
Definition entries_inside : Prop := forall n i x, xan_nents b = Some n -> at_unit n i -> i < n -> xan_entry b i = Some x ->
  XAN_DATA + 8 * (i + xsize x) <= XAN_SIZE.

Lemma rdz_nonneg : forall a k x, rdz b a k = Some x -> 0 <= x.
Proof.
  intros a k x. unfold rdz, bnd. destruct (rd b a k) eqn:E; [|discriminate]. intros H. assert (x = le_dec b0) by congruence. subst x.
  apply rd_inv in E. destruct E as [_ [_ ->]]. apply le_dec_bound. unfold all_bytes in *. unfold zsub, ztake, zdrop.
  apply Forall_forall. intros z Hz. rewrite Forall_forall in Bt. apply Bt.
  revert Hz. generalize (Z.to_nat a). clear. intros m.
  intros H. assert (H1 : In z (skipn m b)).
  { revert H. generalize (skipn m b). clear. intros q. revert q. induction (Z.to_nat k) as [|p IH]; intros q H; [contradiction|].
    destruct q; [contradiction|]. destruct H as [->|H]; [left; reflexivity|right; exact (IH q H)]. }
  rewrite <- (firstn_skipn m b). apply in_app_iff. right. exact H1.
Qed.
Lemma xentry_inv : forall i x, xan_entry b i = Some x -> 0 <= x_nl x /\ 0 <= x_vs x /\ 1 <= xsize x /\ 0 <= XAN_DATA + 8 * i /\ XAN_DATA + 8 * i + 8 <= XAN_SIZE.
Proof.
  intros i x. unfold xan_entry. destruct (rdz b (XAN_DATA + 8 * i) 2) as [nl|] eqn:E1; [|discriminate]. cbn [bnd].
  destruct (rdz b (XAN_DATA + 8 * i + 4) 4) as [vs|] eqn:E2; [|discriminate]. cbn [bnd]. intros H. assert (x = mkXr nl vs) by congruence. subst x.
  pose proof (rdz_nonneg _ _ _ E1). pose proof (rdz_nonneg _ _ _ E2). apply rdz_inv in E1. apply rdz_inv in E2.
  unfold xsize, xunits, xal. cbn [x_nl x_vs]. lia.
Qed.
Lemma xsize_8 : forall x, 0 <= x_nl x -> 0 <= x_vs x -> 8 * xsize x = 8 + xal (x_nl x) + xal (x_vs x) /\ x_nl x <= xal (x_nl x) /\ x_vs x <= xal (x_vs x).
Proof. intros x H1 H2. unfold xsize, xunits, xal. lia. Qed.

Lemma verify_range_S : forall k i fin, verify_range (S k) b i fin = (if i <? fin
           then x <- xan_entry b i;
                if negb (xe_ok x) then Some false
                else if (xsize x =? 0) || (fin <? 0 + xsize x) then Some false
                else verify_range k b (i + xsize x) fin
           else Some true).
Proof. reflexivity. Qed.
Lemma verify_step : forall k i n, verify_range (S k) b i n = Some true -> i < n ->
  exists x, xan_entry b i = Some x /\ xe_ok x = true /\ verify_range k b (i + xsize x) n = Some true.
Proof.
  intros k i n. rewrite verify_range_S. intros H Hi. replace (i <? n) with true in H by lia. destruct (xan_entry b i) as [x|]; [|discriminate].
  cbn [bnd] in H. exists x. destruct (xe_ok x); [|discriminate]. cbn [negb] in H. destruct (_ || _); [discriminate|]. auto.
Qed.
(* the walks never run out of rounds *)
Lemma search_range_fuel : forall nm k j i n, n - i <= Z.of_nat k -> search_range (k + j) b i n nm = search_range k b i n nm.
Proof.
  intros nm. induction k as [|k IH]; intros j i n H; cbn [Nat.add].
  - destruct j; [reflexivity|]. cbn [search_range]. replace (i <? n) with false by lia. reflexivity.
  - cbn [search_range]. destruct (i <? n); [|reflexivity]. destruct (xan_entry b i) as [x|] eqn:E; [|reflexivity]. cbn [bnd].
    destruct (if zlen nm =? x_nl x then rcmp b (XAN_DATA + 8 * (i + 1)) nm else Some false) as [[|]|]; try reflexivity. cbn [bnd]. apply IH. apply xentry_inv in E. lia.
Qed.
Lemma list_range_fuel : forall k j i n, n - i <= Z.of_nat k -> list_range (k + j) b i n = list_range k b i n.
Proof.
  induction k as [|k IH]; intros j i n H; cbn [Nat.add].
  - destruct j; [reflexivity|]. cbn [list_range]. replace (i <? n) with false by lia. reflexivity.
  - cbn [list_range]. destruct (i <? n); [|reflexivity]. destruct (xan_entry b i) as [x|] eqn:E; [|reflexivity]. cbn [bnd].
    destruct (rd b _ _); [|reflexivity]. cbn [bnd]. rewrite IH; [reflexivity|]. apply xentry_inv in E. lia.
Qed.
Lemma verify_range_fuel : forall k j i n, n - i <= Z.of_nat k -> verify_range (k + j) b i n = verify_range k b i n.
Proof.
  induction k as [|k IH]; intros j i n H; cbn [Nat.add].
  - destruct j; [reflexivity|]. cbn [verify_range]. replace (i <? n) with false by lia. reflexivity.
  - cbn [verify_range]. destruct (i <? n); [|reflexivity]. destruct (xan_entry b i) as [x|] eqn:E; [|reflexivity]. cbn [bnd].
    destruct (negb _); [reflexivity|]. destruct (_ || _); [reflexivity|]. apply IH. apply xentry_inv in E. lia.
Qed.

Lemma xsearch_safe : forall n nm, xan_nents b = Some n -> entries_inside -> forall k i, verify_range k b i n = Some true -> at_unit n i ->
  exists r, search_range k b i n nm = Some r /\ (forall j x, r = Some (j, x) -> at_unit n j /\ j < n /\ xan_entry b j = Some x).
Proof.
  intros n nm E In. induction k as [|k IH]; intros i V A; [exists None; split; [reflexivity|discriminate]|]. cbn [search_range].
  destruct (Z.ltb_spec i n) as [Hi|Hi]; [|exists None; split; [reflexivity|discriminate]].
  destruct (verify_step k i n V Hi) as [x [X [_ V']]]. rewrite X. cbn [bnd].
  destruct (IH (i + xsize x) V' (au_next n i x A Hi X)) as [r [Sr Pr]]. rewrite Sr.
  destruct (Z.eqb_spec (zlen nm) (x_nl x)) as [Q|Q]; [|cbn [bnd]; eauto].
  pose proof (In n i x E A Hi X) as Y. destruct (xentry_inv i x X) as [X1 [X2 [X3 [X4 X5]]]]. destruct (xsize_8 x X1 X2) as [Z1 [Z2 Z3]].
  unfold XAN_DATA, XAN_SIZE in *. rewrite rcmp_some by lia. cbn [bnd]. destruct (bytes_eqb _ _); [|eauto].
  exists (Some (i, x)). split; [reflexivity|]. intros j y J. assert (j = i) by congruence. assert (y = x) by congruence. subst. auto.
Qed.
Lemma xlist_safe : forall n, xan_nents b = Some n -> entries_inside -> forall k i, verify_range k b i n = Some true -> at_unit n i ->
  list_range k b i n <> None.
Proof.
  intros n E In. induction k as [|k IH]; intros i V A; [discriminate|]. cbn [list_range].
  destruct (Z.ltb_spec i n) as [Hi|Hi]; [|discriminate]. destruct (verify_step k i n V Hi) as [x [X [_ V']]]. rewrite X. cbn [bnd].
  pose proof (In n i x E A Hi X) as Y. destruct (xentry_inv i x X) as [X1 [X2 [X3 [X4 X5]]]]. destruct (xsize_8 x X1 X2) as [Z1 [Z2 Z3]].
  unfold XAN_DATA, XAN_SIZE in *. rewrite rd_some by lia. cbn [bnd].
  destruct (list_range k b (i + xsize x) n) eqn:Q; [discriminate|]. exfalso. exact (IH _ V' (au_next n i x A Hi X) Q).
Qed.
Lemma verified_nents : verify_xattr_node b = Some true -> exists n, xan_nents b = Some n /\ verify_range (Z.to_nat n) b 0 n = Some true.
Proof.
  unfold verify_xattr_node. destruct (rdz b 16 8) as [ino|]; [|discriminate]. cbn [bnd]. destruct (ino =? 0); [discriminate|].
  destruct (xan_nents b) as [n|]; [|discriminate]. cbn [bnd]. eauto.
Qed.
Lemma verified_entry : forall n j, verify_range (Z.to_nat n) b 0 n = Some true -> at_unit n j -> j < n ->
  exists x, xan_entry b j = Some x /\ xe_ok x = true.
Proof.
  intros n j V Aj Hj.
  assert (M : exists k', verify_range k' b j n = Some true /\ n - j <= Z.of_nat k').
  { induction Aj as [|j x Aj IH Hl X]; [exists (Z.to_nat n); split; [exact V|lia]|]. pose proof (xentry_inv j x X) as Y.
    destruct (IH Hl) as [k' [V' K']]. destruct k' as [|k']; [lia|]. destruct (verify_step k' j n V' Hl) as [y [Ey [_ Vy]]].
    assert (y = x) by congruence. subst y. exists k'. split; [exact Vy|lia]. }
  destruct M as [k' [V' K']]. destruct k' as [|k']; [lia|]. destruct (verify_step k' j n V' Hj) as [y [Ey [O _]]]. eauto.
Qed.
End Xa.

(* A verified node whose entries all end inside it: lookup, value and listing stay inside. *)
Theorem xattr_reads_in_bounds_partial : forall b, zlen b = XAN_SIZE -> all_bytes b -> verify_xattr_node b = Some true -> entries_inside b ->
  (forall name, search_xattr_node b name <> None /\ get_xattr_node b name <> None) /\ list_xattr_node b <> None.
Proof.
  intros b L Bt V In. destruct (verified_nents b V) as [n [E Vr]].
  assert (G : forall name, exists r, search_xattr_node b name = Some r /\ (forall j x, r = Some (j, x) -> at_unit b n j /\ j < n /\ xan_entry b j = Some x)).
  { intros name. unfold search_xattr_node. rewrite E. cbn [bnd]. destruct (_ <=? n); [|exists None; split; [reflexivity|discriminate]].
    exact (xsearch_safe b L Bt n name E In (Z.to_nat n) 0 Vr (au_0 b n)). }
  split.
  - intros name. destruct (G name) as [r [Sr Pr]]. unfold get_xattr_node. rewrite Sr. split; [discriminate|]. cbn [bnd].
    destruct r as [[j x]|]; [|discriminate]. destruct (Pr j x eq_refl) as [A [Hj X]]. pose proof (In n j x E A Hj X) as Y.
    destruct (xentry_inv b L Bt j x X) as [X1 [X2 [X3 [X4 X5]]]]. destruct (xsize_8 x X1 X2) as [Z1 [Z2 Z3]].
    unfold XAN_DATA, XAN_SIZE in *. rewrite rd_some by lia. discriminate.
  - unfold list_xattr_node. rewrite E. cbn [bnd]. exact (xlist_safe b L Bt n E In (Z.to_nat n) 0 Vr (au_0 b n)).
Qed.
Print Assumptions xattr_reads_in_bounds_partial.
(* What verification itself guarantees of every entry the walks meet; reads go at most 2560 bytes
   too far. *)
Theorem xattr_overrun_bounded : forall b n i x, zlen b = XAN_SIZE -> all_bytes b -> verify_xattr_node b = Some true ->
  xan_nents b = Some n -> at_unit b n i -> i < n -> xan_entry b i = Some x ->
  1 <= x_nl x <= 511 /\ 0 <= x_vs x <= 2048 /\ 0 <= i < 504 /\ XAN_DATA + 8 * (i + xsize x) <= XAN_SIZE + 2560.
Proof.
  intros b n i x L Bt V E A Hi X. destruct (verified_nents b V) as [m [E' Vr]]. assert (m = n) by congruence. subst m.
  destruct (verified_entry b L Bt n i Vr A Hi) as [y [Y O]]. assert (y = x) by congruence. subst y.
  destruct (xentry_inv b L Bt i x X) as [X1 [X2 [X3 [X4 X5]]]]. unfold xe_ok, DTN_NAME_MAX, XAN_VALUE_MAX in O.
  assert (0 <= i). { clear -A L Bt. induction A as [|i x A IH Hl X]; [lia|]. pose proof (xentry_inv b L Bt i x X). lia. }
  unfold XAN_DATA, XAN_SIZE, xsize, xunits, xal in *. lia.
Qed.
Print Assumptions xattr_overrun_bounded.

(* ---- attribute nodes the file system itself writes ---- *)
Definition xan_store (hdr : bytes) (ino : Z) (rsv : bytes) (n : xnode) : bytes :=
  (hdr ++ le_enc 8 (u64 ino) ++ le_enc 2 (u16 (xn_nents n)) ++ rsv) ++ xn_buf n.
Inductive xbuilt : xnode -> Prop :=
| xb_new : xbuilt xan_setup
| xb_ins : forall n name value n', xbuilt n -> 1 <= zlen name <= 255 -> zlen value <= 2048 ->
    xan_insert n name value = Some n' -> xbuilt n'
| xb_rem : forall n name i, xbuilt n -> xan_search n name = Some i -> xbuilt (xan_remove n i).
Definition named (es : list entry) : Prop := Forall (fun e => 1 <= zlen (fst e)) es.
Lemma xbuilt_rep : forall n, xbuilt n -> exists es, node_rep n es /\ named es.
Proof.
  induction 1 as [|n name value n' B [es [R N]] Hn Hv I|n name i B [es [R N]] S].
  - exists []. split; [apply setup_rep|constructor].
  - assert (W : wf_entry (name, value)) by (split; cbn; lia). destruct (xan_insert_rep n es name value R W) as [P Q].
    destruct (Z_le_gt_dec (units es + eunits (name, value)) XA_NENTS) as [G|G]; [|apply Z.gt_lt in G; rewrite (Q G) in I; discriminate].
    destruct (P G) as [m [M1 M2]]. assert (m = n') by congruence. subst m. exists (es ++ [(name, value)]). split; [exact M2|].
    apply Forall_app. split; [exact N|]. constructor; [cbn; lia|constructor].
  - rewrite (xan_search_rep n es name R) in S. destruct (find_pos es name) as [[[p x] q]|] eqn:F; [|discriminate]. cbn [option_map] in S.
    apply find_pos_some in F. destruct F as [-> _]. assert (i = units p) by congruence. subst i. exists (p ++ q). split; [exact (xan_remove_rep n p x q R)|].
    apply Forall_app in N. destruct N as [N1 N2]. inversion N2; subst. apply Forall_app. auto.
Qed.
Lemma xal_eq : forall k, xe_aligned k = xal k.
Proof. intros k. unfold xe_aligned, xal, XUNIT. replace (k + 8 - 1) with (k + 7) by lia. reflexivity. Qed.
Lemma xunits_eq : forall k v, xunits k v = xe_calc_nents k v.
Proof. intros k v. unfold xunits, xe_calc_nents. rewrite !xal_eq. reflexivity. Qed.
Lemma xsize_units : forall e : entry, xsize (mkXr (zlen (fst e)) (zlen (snd e))) = eunits e.
Proof. intros e. unfold xsize. cbn [x_nl x_vs]. apply xunits_eq. Qed.

Section XStored.
Variables (hdr : bytes) (ino : Z) (rsv : bytes) (n : xnode) (es : list entry).
Hypotheses (Lh : zlen hdr = 16) (Lr : zlen rsv = 38) (R : node_rep n es) (N : named es).
Let b := xan_store hdr ino rsv n.
Lemma xhead_len : zlen (hdr ++ le_enc 8 (u64 ino) ++ le_enc 2 (u16 (xn_nents n)) ++ rsv) = 64.
Proof. rewrite !zlen_app, !zlen_le_enc. lia. Qed.
Lemma xbuf_len : zlen (xn_buf n) = 4032.
Proof.
  destruct R as (_ & U & _ & B). rewrite B, zlen_app, zlen_enc. pose proof (units_nonneg es). unfold XUNIT, XA_NENTS in *. rewrite zlen_zrepeat by lia. lia.
Qed.
Lemma xstore_len : zlen b = XAN_SIZE.
Proof. unfold b, xan_store. rewrite zlen_app, xhead_len, xbuf_len. reflexivity. Qed.
Lemma xstore_data : forall o k, 0 <= o -> zsub (XAN_DATA + o) k b = zsub o k (xn_buf n).
Proof. intros o k Ho. unfold b, xan_store, XAN_DATA. rewrite zsub_app_r by (rewrite xhead_len; lia). rewrite xhead_len. f_equal. lia. Qed.
Lemma xstore_nents : xan_nents b = Some (units es).
Proof.
  destruct R as (_ & U & E & _). pose proof (units_nonneg es). unfold xan_nents. pose proof xstore_len as SL. unfold XAN_SIZE, XA_NENTS in *. rewrite rdz_some by lia. f_equal.
  unfold b, xan_store. rewrite <- app_assoc. rewrite zsub_app_r by lia.
  rewrite <- app_assoc; rewrite zsub_app_r by (rewrite !zlen_le_enc; lia). rewrite !zlen_le_enc, Lh.
  rewrite <- !app_assoc, zsub_prefix by (rewrite zlen_le_enc; reflexivity). rewrite E. unfold u16. rewrite le_dec_enc; cbn; lia.
Qed.
Lemma xstore_ino : rdz b 16 8 = Some (u64 ino).
Proof.
  rewrite rdz_some by (rewrite ?xstore_len; unfold XAN_SIZE; lia). f_equal. unfold b, xan_store. rewrite <- app_assoc. rewrite zsub_app_r by lia. rewrite Lh.
  rewrite <- !app_assoc, zsub_prefix by (rewrite zlen_le_enc; reflexivity). unfold u64. rewrite le_dec_enc; cbn; lia.
Qed.
Lemma xstore_entry : forall pre e suf, es = pre ++ e :: suf ->
  xan_entry b (units pre) = Some (mkXr (zlen (fst e)) (zlen (snd e))) /\
  zsub (XAN_DATA + 8 * (units pre + 1)) (zlen (fst e)) b = fst e /\
  zsub (XAN_DATA + 8 * (units pre + 1) + xal (zlen (fst e))) (zlen (snd e)) b = snd e /\
  0 <= units pre /\ units pre + eunits e + units suf = units es /\ units es <= 504.
Proof.
  intros pre e suf E. destruct R as (W & U & _ & B). pose proof (units_nonneg pre) as U1. pose proof (units_nonneg suf) as U2. pose proof (eunits_pos e) as U3.
  assert (US : units pre + eunits e + units suf = units es) by (rewrite E, units_app, units_cons; lia). unfold XA_NENTS in U.
  assert (We : wf_entry e). { rewrite E in W. apply Forall_app in W. destruct W as [_ W]. inversion W; assumption. }
  pose proof (read_entry pre e (enc suf ++ zrepeat 0 (XUNIT * (XA_NENTS - units es))) We) as Q. cbv zeta in Q.
  assert (BB : xn_buf n = enc pre ++ enc_entry e ++ enc suf ++ zrepeat 0 (XUNIT * (XA_NENTS - units es))).
  { rewrite B. rewrite E at 1. rewrite enc_app, enc_cons, <- !app_assoc. reflexivity. }
  rewrite <- BB in Q. destruct Q as (Q1 & Q2 & Q3 & Q4 & _). pose proof xstore_len as SL. unfold XAN_SIZE in SL.
  pose proof (zlen_nonneg _ (fst e)) as Z1. pose proof (zlen_nonneg _ (snd e)) as Z2.
  unfold xe_name, xe_value, XUNIT in *. rewrite Q1 in Q3, Q4. rewrite Q2 in Q4. unfold xe_name_len, xe_value_size, XUNIT in Q1, Q2.
  split; [|split; [|split; [|lia]]].
  - unfold xan_entry. rewrite !rdz_some by (unfold XAN_DATA; lia). cbn [bnd]. rewrite <- Z.add_assoc, !xstore_data by lia. rewrite Q1, Q2. reflexivity.
  - rewrite xstore_data by lia. exact Q3.
  - rewrite <- Z.add_assoc, xstore_data by (unfold xal; lia). rewrite xal_eq in Q4. exact Q4.
Qed.
Lemma xstore_verify_range : forall k pre suf, es = pre ++ suf -> verify_range k b (units pre) (units es) = Some true.
Proof.
  induction k as [|k IH]; intros pre suf E; [reflexivity|]. rewrite verify_range_S. destruct (Z.ltb_spec (units pre) (units es)) as [Hl|Hl]; [|reflexivity].
  destruct suf as [|e suf]; [rewrite app_nil_r in E; subst; lia|]. destruct (xstore_entry pre e suf E) as (X & _ & _ & U1 & U2 & U3). rewrite X. cbn [bnd].
  rewrite xsize_units. pose proof (eunits_pos e). pose proof (units_nonneg suf).
  destruct R as (W & _). rewrite E in W. apply Forall_app in W. destruct W as [_ W]. inversion W as [|x y [W1 W2] W3]; subst x y.
  assert (Ne : 1 <= zlen (fst e)). { pose proof N as M. rewrite E in M. apply Forall_app in M. destruct M as [_ M]. inversion M; assumption. }
  pose proof (zlen_nonneg _ (snd e)). replace (xe_ok _) with true by (unfold xe_ok, DTN_NAME_MAX, XAN_VALUE_MAX; cbn [x_nl x_vs]; lia). cbn [negb].
  replace (_ || _) with false by lia. replace (units pre + eunits e) with (units (pre ++ [e])) by (rewrite units_app, units_cons; cbn; lia).
  apply (IH (pre ++ [e]) suf). rewrite <- app_assoc. exact E.
Qed.
Lemma xstore_search_range : forall nm k pre suf, es = pre ++ suf -> units suf <= Z.of_nat k ->
  search_range k b (units pre) (units es) nm =
  Some (match find_pos suf nm with Some (p, x, _) => Some (units pre + units p, mkXr (zlen (fst x)) (zlen (snd x))) | None => None end).
Proof.
  intros nm. induction k as [|k IH]; intros pre suf E Hk.
  - destruct suf as [|e suf]; [reflexivity|]. rewrite units_cons in Hk. pose proof (eunits_pos e). pose proof (units_nonneg suf). lia.
  - cbn [search_range]. destruct suf as [|e suf].
    { rewrite app_nil_r in E. subst pre. rewrite Z.ltb_irrefl. reflexivity. }
    destruct (xstore_entry pre e suf E) as (X & Y & _ & U1 & U2 & U3). pose proof (eunits_pos e). pose proof (units_nonneg suf).
    replace (units pre <? units es) with true by lia. rewrite X. cbn [bnd x_nl]. rewrite xsize_units, units_cons in *.
    pose proof (zlen_nonneg _ (fst e)) as Z1. pose proof (zlen_nonneg _ (snd e)) as Z2. destruct (calc_nents_8 _ _ Z1 Z2) as [K8 _]. fold (eunits e) in K8.
    destruct (aligned_ge _ Z1) as [K1 _]. destruct (aligned_ge _ Z2) as [K2 _]. unfold XUNIT in K8.
    assert (C : (if zlen nm =? zlen (fst e) then rcmp b (XAN_DATA + 8 * (units pre + 1)) nm else Some false) = Some (bytes_eqb (fst e) nm)).
    { destruct (Z.eqb_spec (zlen nm) (zlen (fst e))) as [Q|Q].
      - pose proof xstore_len as SL. unfold XAN_SIZE in SL. rewrite rcmp_some by (unfold XAN_DATA; lia). rewrite Q, Y. reflexivity.
      - destruct (bytes_eqb (fst e) nm) eqn:G; [|reflexivity]. apply bytes_eqb_eq in G. subst. lia. }
    rewrite C. cbn [bnd find_pos]. destruct (bytes_eqb (fst e) nm).
    + cbn. rewrite Z.add_0_r. reflexivity.
    + replace (units pre + eunits e) with (units (pre ++ [e])) by (rewrite units_app, units_cons; cbn; lia).
      rewrite (IH (pre ++ [e]) suf); [|rewrite <- app_assoc; exact E|lia].
      destruct (find_pos suf nm) as [[[p x] q]|]; cbn [option_map]; [|reflexivity]. do 3 f_equal.
      rewrite units_app, !units_cons. cbn. lia.
Qed.
Lemma xstore_get : forall nm, get_xattr_node b nm = Some (option_map (fun i => xe_value (xn_buf n) i) (xan_search n nm)).
Proof.
  intros nm. pose proof (xan_search_rep n es nm R) as S. unfold get_xattr_node, search_xattr_node. rewrite xstore_nents. cbn [bnd].
  unfold xan_search in *. destruct R as (W & U & E & B). rewrite E in *.
  rewrite xunits_eq. destruct (_ <=? units es); [|reflexivity]. rewrite S.
  pose proof (xstore_search_range nm (Z.to_nat (units es)) [] es eq_refl ltac:(lia)) as SR. change (units []) with 0 in SR. rewrite SR. cbn [bnd].
  destruct (find_pos es nm) as [[[p x] q]|] eqn:F; [|reflexivity]. cbn [option_map]. apply find_pos_some in F. destruct F as [F _].
  destruct (xstore_entry p x q F) as (_ & _ & V & U1 & U2 & U3). cbn [x_nl x_vs]. rewrite !Z.add_0_l.
  pose proof (zlen_nonneg _ (fst x)) as Z1. pose proof (zlen_nonneg _ (snd x)) as Z2. destruct (calc_nents_8 _ _ Z1 Z2) as [K8 _]. fold (eunits x) in K8. unfold XUNIT in K8.
  destruct (aligned_ge _ Z1) as [K1 _]. destruct (aligned_ge _ Z2) as [K2 _]. pose proof (units_nonneg q).
  assert (XA : xal (zlen (fst x)) = xe_aligned (zlen (fst x))) by (symmetry; apply xal_eq).
  pose proof xstore_len as SL. unfold XAN_SIZE in SL. rewrite rd_some by (unfold XAN_DATA in *; lia). cbn [bnd]. rewrite V. do 2 f_equal. symmetry.
  assert (We : wf_entry x). { rewrite F in W. apply Forall_app in W. destruct W as [_ W]. inversion W; assumption. }
  rewrite B, F at 1. rewrite enc_app, enc_cons, <- !app_assoc. apply (read_entry p x _ We).
Qed.
Lemma xstore_units : forall i, at_unit b (units es) i -> exists pre suf, es = pre ++ suf /\ i = units pre.
Proof.
  induction 1 as [|i x A [pre [suf [E ->]]] Hl X]; [exists [], es; auto|].
  destruct suf as [|e suf]; [rewrite app_nil_r in E; subst; lia|]. destruct (xstore_entry pre e suf E) as (Y & _).
  assert (x = mkXr (zlen (fst e)) (zlen (snd e))) by congruence. subst x. rewrite xsize_units.
  exists (pre ++ [e]), suf. split; [rewrite <- app_assoc; exact E|]. rewrite units_app, units_cons. cbn. lia.
Qed.
Lemma xstore_inside : entries_inside b.
Proof.
  intros m i x E A Hl X. rewrite xstore_nents in E. assert (m = units es) by congruence. subst m. destruct (xstore_units i A) as [pre [suf [Es ->]]].
  destruct suf as [|e suf]; [rewrite app_nil_r in Es; subst; lia|]. destruct (xstore_entry pre e suf Es) as (Y & _ & _ & U1 & U2 & U3).
  assert (x = mkXr (zlen (fst e)) (zlen (snd e))) by congruence. subst x. rewrite xsize_units. pose proof (units_nonneg suf). unfold XAN_DATA, XAN_SIZE. lia.
Qed.
Lemma xstore_verified : 0 < ino < 2 ^ 64 -> verify_xattr_node b = Some true.
Proof.
  intros Hi. unfold verify_xattr_node. rewrite xstore_ino, xstore_nents. cbn [bnd]. unfold u64. rewrite Z.mod_small by lia.
  replace (ino =? 0) with false by lia. exact (xstore_verify_range _ [] es eq_refl).
Qed.
End XStored.

Theorem own_xattr_nodes_verify : forall hdr ino rsv n, xbuilt n -> zlen hdr = 16 -> zlen rsv = 38 -> 0 < ino < 2 ^ 64 ->
  let b := xan_store hdr ino rsv n in
  verify_xattr_node b = Some true /\ entries_inside b /\
  (forall nm, get_xattr_node b nm = Some (option_map (fun i => xe_value (xn_buf n) i) (xan_search n nm))).
Proof.
  intros hdr ino rsv n B Lh Lr Hi b. destruct (xbuilt_rep n B) as [es [R N]].
  split; [exact (xstore_verified hdr ino rsv n es Lh Lr R N Hi)|]. split; [exact (xstore_inside hdr ino rsv n es Lh Lr R N)|].
  exact (xstore_get hdr ino rsv n es Lh Lr R N).
Qed.
Print Assumptions own_xattr_nodes_verify.
Example own_xattr_ex : exists n1 n2, xan_insert xan_setup [97; 98] [1; 2; 3] = Some n1 /\ xan_insert n1 [99] [] = Some n2 /\
  xbuilt n2 /\ xan_search n2 [99] = Some 3.
Proof.
  destruct (xan_insert xan_setup [97; 98] [1; 2; 3]) as [n1|] eqn:E1; [|vm_compute in E1; discriminate].
  destruct (xan_insert n1 [99] []) as [n2|] eqn:E2.
  - exists n1, n2. repeat split; auto.
    + apply (xb_ins n1 [99] [] n2); [apply (xb_ins xan_setup [97; 98] [1; 2; 3] n1); [apply xb_new| | |exact E1]| | |exact E2]; cbn; lia.
    + assert (F : forall m1 m2, xan_insert xan_setup [97; 98] [1; 2; 3] = Some m1 -> xan_insert m1 [99] [] = Some m2 -> xan_search m2 [99] = Some 3).
      { intros m1 m2 F1 F2. vm_compute in F1. injection F1 as <-. vm_compute in F2. injection F2 as <-. vm_compute. reflexivity. }
      exact (F n1 n2 E1 E2).
  - exfalso. vm_compute in E1. injection E1 as <-. vm_compute in E2. discriminate.
Qed.

(* A verified node and an attribute whose value is read past its end: the room of each entry is
   measured from the start of the node. *)
Definition bad_xnode : bytes :=
  zrepeat 0 16 ++ le_enc 8 2 ++ le_enc 2 504 ++ zrepeat 0 38 ++
  enc_head ([97], zrepeat 0 2048) ++ [97] ++ zrepeat 0 7 ++ zrepeat 0 2048 ++
  enc_head ([98], zrepeat 0 2048) ++ [98] ++ zrepeat 0 1959.
Theorem xattr_lookup_in_bounds_refuted : exists b name, zlen b = XAN_SIZE /\ verify_xattr_node b = Some true /\ get_xattr_node b name = None.
Proof. exists bad_xnode, [98]. repeat split; vm_compute; reflexivity. Qed.
Print Assumptions xattr_lookup_in_bounds_refuted.
(* Verification itself reads past the end: the number of units is not checked. *)
Theorem xattr_verify_in_bounds_refuted : exists b, zlen b = XAN_SIZE /\ verify_xattr_node b = None.
Proof.
  exists (zrepeat 0 16 ++ le_enc 8 2 ++ le_enc 2 505 ++ zrepeat 0 38 ++
          enc_head ([97], zrepeat 0 2048) ++ [97] ++ zrepeat 0 7 ++ zrepeat 0 2048 ++
          enc_head ([98], zrepeat 0 1952) ++ [98] ++ zrepeat 0 1959).
  split; vm_compute; reflexivity.
Qed.
Print Assumptions xattr_verify_in_bounds_refuted.
