(* Reading a directory: the reply of one call is an initial part of the sequence of records at or
   after the given position. *)
From Verif Require Import Base DirNodeModel DirNodeProofs DirModel DirProofs.

(* ---------- positions as numbers ---------- *)
Lemma lor_add : forall a b k, 0 <= k -> 0 <= b < 2 ^ k -> Z.lor (Z.shiftl a k) b = a * 2 ^ k + b.
Proof.
  intros a b k Hk Hb. rewrite <- Z.shiftl_mul_pow2 by auto.
  assert (L : Z.land (Z.shiftl a k) b = 0).
  { apply Z.bits_inj'. intros j Hj. rewrite Z.land_spec, Z.bits_0. destruct (Z.ltb_spec j k).
    - rewrite Z.shiftl_spec_low; auto.
    - replace b with (b mod 2 ^ k) by (apply Z.mod_small; lia). rewrite Z.mod_pow2_bits_high by lia. apply andb_false_r. }
  rewrite Z.add_nocarry_lxor by auto. symmetry. apply Z.lxor_lor. auto.
Qed.
Lemma doffset_val : forall i s, 0 <= s < 8192 -> make_doffset i s = (i * 8192 + s) * 4 + 2.
Proof.
  intros i s Hs. unfold make_doffset. change 8191 with (Z.ones 13). rewrite Z.land_ones by lia.
  rewrite Z.mod_small by lia. rewrite (lor_add i s 13) by lia. rewrite (lor_add (i * 2 ^ 13 + s) 2 2) by lia. lia.
Qed.
Lemma dindex_val : forall p, 0 <= p < 2 ^ 64 -> doff_to_index p = if p / 32768 <=? 2 ^ 24 then p / 32768 else 0.
Proof.
  intros p Hp. unfold doff_to_index, DTREE_INDEX_MAX, u64. rewrite !Z.shiftr_div_pow2 by lia.
  rewrite (Z.mod_small (p / 2 ^ 2)) by lia. rewrite Z.div_div by lia. reflexivity.
Qed.
Lemma dslot_val : forall p, 0 <= p < 2 ^ 64 -> doff_to_slot p = p / 4 mod 8192.
Proof.
  intros p Hp. unfold doff_to_slot, u64. change 8191 with (Z.ones 13). rewrite Z.land_ones by lia.
  rewrite !Z.shiftr_div_pow2 by lia. rewrite (Z.mod_small (p / 2 ^ 2)) by lia. reflexivity.
Qed.

(* ---------- the consumer ---------- *)
Section Feed.
Variables (bsz : Z) (plus : bool).
Fixpoint feed (di : diter) (rs : list rdi) : diter * bool :=
  match rs with
  | [] => (di, true)
  | r :: t => let (d, ok) := filldir bsz plus di r in if ok then feed d t else (d, false)
  end.
Lemma feed_app : forall a b di, feed di (a ++ b) =
  let (d, ok) := feed di a in if ok then feed d b else (d, false).
Proof.
  induction a as [|r a IH]; intros b di; cbn [app feed]; auto.
  destruct (filldir bsz plus di r) as [d ok]. destruct ok; auto.
Qed.

(* what the reply holds: every record with the position of the next *)
Fixpoint relink (a : list rdi) (z : Z) : list rdi :=
  match a with
  | [] => []
  | r :: t => mkRdi (match t with [] => z | q :: _ => rd_off q end) (rd_ino r) (rd_dt r) (rd_name r) :: relink t z
  end.
Lemma relink_snoc_last : forall a z d, a <> [] -> rd_off (last (relink a z) d) = z.
Proof.
  induction a as [|r a IH]; intros z d H; [congruence|]. destruct a as [|q a]; [reflexivity|].
  change (relink (r :: q :: a) z) with (mkRdi (rd_off q) (rd_ino r) (rd_dt r) (rd_name r) :: relink (q :: a) z).
  specialize (IH z d ltac:(discriminate)). assert (relink (q :: a) z <> []) by discriminate.
  destruct (relink (q :: a) z); [congruence|exact IH].
Qed.
Lemma relink_core : forall a z, map (fun r => (rd_name r, (rd_ino r, rd_dt r))) (relink a z) =
  map (fun r => (rd_name r, (rd_ino r, rd_dt r))) a.
Proof. induction a as [|r a IH]; intros z; cbn [relink map]; auto. rewrite IH. reflexivity. Qed.
Lemma relink_nil : forall a z, relink a z = [] -> a = [].
Proof. intros [|r a] z H; [auto|discriminate]. Qed.

Definition live (r : rdi) : Prop := 0 < rd_ino r /\ 1 <= zlen (rd_name r) <= 255.
Definition eos : rdi := mkRdi (-1) 0 0 [].

Lemma feed_held : forall rs r0 len out, Forall live (r0 :: rs) ->
  exists a r b, r0 :: rs ++ [eos] = a ++ r :: b /\
    di_out (fst (feed (mkDi r0 len out) (rs ++ [eos]))) = out ++ relink a (rd_off r) /\
    (a = [] -> bsz - len < 512).
Proof.
  induction rs as [|r1 rs IH]; intros r0 len out F; inversion F as [|x y (L1 & L2) F2]; subst; cbn [app feed];
    unfold filldir; cbn [di_cur di_len di_out];
    (replace ((0 <? rd_ino r0) && (0 <? zlen (rd_name r0))) with true by lia);
    (assert (S : ent_size plus (zlen (rd_name r0)) <= 512) by (unfold ent_size; destruct plus; lia));
    destruct ((bsz - len <=? zlen (rd_name r0)) || (bsz - len <? ent_size plus (zlen (rd_name r0)))) eqn:C.
  - exists [], r0, [eos]. cbn [fst di_out relink]. rewrite app_nil_r. split; auto. split; auto. lia.
  - exists [r0], eos, []. cbn [feed fst di_out relink]. split; auto. split; auto. discriminate.
  - exists [], r0, (r1 :: rs ++ [eos]). cbn [fst di_out relink]. rewrite app_nil_r. split; auto. split; auto. lia.
  - destruct (IH r1 (len + ent_size plus (zlen (rd_name r0)))
      (out ++ [mkRdi (rd_off r1) (rd_ino r0) (rd_dt r0) (rd_name r0)]) F2) as (a & r & b & E1 & E2 & _).
    exists (r0 :: a), r, b. split; [cbn [app]; f_equal; exact E1|]. split; [|discriminate].
    rewrite E2. rewrite <- app_assoc. cbn [relink app]. do 3 f_equal.
    destruct a; cbn [app] in E1; inversion E1; reflexivity.
Qed.
Lemma feed_all : forall rs, Forall live rs ->
  exists a r b, rs ++ [eos] = a ++ r :: b /\
    di_out (fst (feed (mkDi no_rdi 0 []) (rs ++ [eos]))) = relink a (rd_off r) /\
    (a = [] -> 512 <= bsz -> rs = []).
Proof.
  intros [|r0 rs] F.
  - exists [], eos, []. split; auto.
  - destruct (feed_held rs r0 0 [] F) as (a & r & b & E1 & E2 & E3). exists a, r, b. split; auto. split; auto.
    intros A B. specialize (E3 A). lia.
Qed.
End Feed.

(* ---------- the records of a node ---------- *)
Definition rec_of (i : Z) (s : nat) (e : dent) : rdi := mkRdi (make_doffset i (Z.of_nat s)) (e_ino e) (e_dt e) (e_name e).
Definition pick (i : Z) (l : list dslot) (p : Z) (s : nat) : list rdi :=
  match nth s l None with
  | Some e => if p <=? make_doffset i (Z.of_nat s) then [rec_of i s e] else []
  | None => []
  end.
Definition sel (i : Z) (l : list dslot) (p : Z) : list rdi := flat_map (pick i l p) (seq 0 (length l)).

Lemma flat_map_nil : forall (A B : Type) (f : A -> list B) l, (forall x, In x l -> f x = []) -> flat_map f l = [].
Proof.
  induction l as [|x l IH]; intros H; auto. cbn [flat_map]. rewrite (H x), IH; auto.
  - intros y Hy. apply H. right. auto.
  - left. auto.
Qed.
Lemma flat_map_ext_in : forall (A B : Type) (f g : A -> list B) l, (forall x, In x l -> f x = g x) ->
  flat_map f l = flat_map g l.
Proof.
  induction l as [|x l IH]; intros H; auto. cbn [flat_map]. rewrite (H x), IH; auto.
  - intros y Hy. apply H. right. auto.
  - left. auto.
Qed.
Lemma flat_map_length_le : forall (A B : Type) (f : A -> list B) l, (forall x, (length (f x) <= 1)%nat) ->
  (length (flat_map f l) <= length l)%nat.
Proof.
  intros A B f l H. induction l as [|x l IH]; cbn [flat_map length]; auto. rewrite app_length. specialize (H x). lia.
Qed.
Lemma seq_split3 : forall a k s, (a <= s < a + k)%nat -> seq a k = seq a (s - a) ++ s :: seq (S s) (a + k - S s).
Proof.
  intros a k s H. replace k with ((s - a) + S (a + k - S s))%nat at 1 by lia. rewrite seq_app. f_equal.
  replace (a + (s - a))%nat with s by lia. reflexivity.
Qed.
Lemma find_seq : forall f a k, match find f (seq a k) with
  | Some s => (a <= s < a + k)%nat /\ f s = true /\ forall t, (a <= t < s)%nat -> f t = false
  | None => forall t, (a <= t < a + k)%nat -> f t = false
  end.
Proof.
  intros f a k. revert a. induction k; intros a; cbn [seq find].
  - intros t Ht. lia.
  - destruct (f a) eqn:E.
    + split; [lia|]. split; auto. intros t Ht. lia.
    + specialize (IHk (S a)). destruct (find f (seq (S a) k)) as [s|].
      * destruct IHk as (I1 & I2 & I3). split; [lia|]. split; auto. intros t Ht.
        destruct (Nat.eq_dec t a) as [->|]; auto. apply I3. lia.
      * intros t Ht. destruct (Nat.eq_dec t a) as [->|]; auto. apply IHk. lia.
Qed.

Lemma doff_lt : forall i s t, (s < 480)%nat -> (t < 480)%nat ->
  make_doffset i (Z.of_nat s) < make_doffset i (Z.of_nat t) <-> (s < t)%nat.
Proof. intros. rewrite !doffset_val by lia. lia. Qed.

(* reading on after a record of the node *)
Lemma sel_step : forall i l p s e, (length l <= 480)%nat -> nth s l None = Some e -> p <= make_doffset i (Z.of_nat s) ->
  (forall t, (t < s)%nat -> pick i l p t = []) ->
  sel i l p = rec_of i s e :: sel i l (make_doffset i (Z.of_nat s) + 1).
Proof.
  intros i l p s e Hl Hs Hp Hb. pose proof (nth_some_lt _ _ _ Hs) as Hlt. unfold sel.
  rewrite (seq_split3 0 (length l) s) by lia. rewrite !flat_map_app. cbn [flat_map].
  rewrite (flat_map_nil _ _ (pick i l p)).
  2:{ intros x Hx. apply in_seq in Hx. apply Hb. lia. }
  rewrite (flat_map_nil _ _ (pick i l (make_doffset i (Z.of_nat s) + 1)) (seq 0 (s - 0))).
  2:{ intros x Hx. apply in_seq in Hx. unfold pick. destruct (nth x l None); auto.
      pose proof (doff_lt i x s ltac:(lia) ltac:(lia)). destruct (Z.leb_spec (make_doffset i (Z.of_nat s) + 1) (make_doffset i (Z.of_nat x))); auto. lia. }
  cbn [app]. unfold pick at 1 3. rewrite Hs. destruct (Z.leb_spec p (make_doffset i (Z.of_nat s))); [|lia].
  destruct (Z.leb_spec (make_doffset i (Z.of_nat s) + 1) (make_doffset i (Z.of_nat s))); [lia|]. cbn [app]. f_equal.
  apply flat_map_ext_in. intros x Hx. apply in_seq in Hx. unfold pick. destruct (nth x l None); auto.
  pose proof (doff_lt i s x ltac:(lia) ltac:(lia)). destruct (Z.leb_spec p (make_doffset i (Z.of_nat x))); [|lia].
  destruct (Z.leb_spec (make_doffset i (Z.of_nat s) + 1) (make_doffset i (Z.of_nat x))); [auto|lia].
Qed.
Lemma sel_len : forall i l p, (length (sel i l p) <= length l)%nat.
Proof.
  intros. unfold sel. rewrite <- (seq_length (length l) 0) at 2. apply flat_map_length_le.
  intros s. unfold pick. destruct (nth s l None); auto. destruct (p <=? make_doffset i (Z.of_nat s)); auto.
Qed.

(* nothing is lost by starting at the slot of the position *)
Definition slot_ok (i p : Z) : Prop := forall s, 0 <= s < doff_to_slot p -> s < 8192 -> make_doffset i s < p.

Section NodeScan.
Variables (bsz : Z) (plus : bool) (n : dnode) (i : Z) (l : list dslot) (pos : nat -> Z).
Hypothesis R : rep n l pos.
Hypothesis Hi : dn_index n = i.

Lemma l_bound : (length l <= 480)%nat.
Proof.
  pose proof (r_fit _ _ _ R). pose proof (r_nnb _ _ _ R). pose proof (names_len_nonneg l). pose proof (r_nde _ _ _ R). lia.
Qed.

Lemma scan_ok : forall p, slot_ok i p -> 0 <= doff_to_slot p ->
  match dtn_scan n p with
  | Some s => exists e, nth s l None = Some e /\ sel i l p = rec_of i s e :: sel i l (make_doffset i (Z.of_nat s) + 1)
  | None => sel i l p = []
  end.
Proof.
  intros p K K0. unfold dtn_scan. rewrite Hi. pose proof l_bound as B. pose proof (r_nde _ _ _ R) as Nd.
  set (from := if doff_to_slot p <? dn_nde n then Z.to_nat (doff_to_slot p) else Z.to_nat (dn_nde n)).
  assert (F : (from <= length l)%nat /\ forall t, (t < from)%nat -> Z.of_nat t < doff_to_slot p).
  { unfold from. destruct (Z.ltb_spec (doff_to_slot p) (dn_nde n)); split; intros; lia. }
  destruct F as (F1 & F2). clearbody from.
  replace (Z.to_nat (dn_nde n)) with (length l) by lia.
  assert (Lo : forall t, (t < from)%nat -> pick i l p t = []).
  { intros t Ht. unfold pick. destruct (nth t l None); auto. specialize (F2 t Ht).
    destruct (Z.leb_spec p (make_doffset i (Z.of_nat t))); auto. specialize (K (Z.of_nat t)). lia. }
  pose proof (find_seq (fun s => de_isactive (dn_data n) s && (p <=? make_doffset i (Z.of_nat s))) from (length l - from)) as Q.
  destruct (find _ _) as [s|].
  - destruct Q as (Q1 & Q2 & Q3). apply andb_prop in Q2. destruct Q2 as (Q2 & Q4).
    rewrite (rep_active _ _ _ R) in Q2 by lia. destruct (nth s l None) as [e|] eqn:E; [|discriminate].
    exists e. split; auto. apply sel_step; auto; [lia|]. intros t Ht.
    destruct (Nat.lt_ge_cases t from) as [|Hf]; auto. specialize (Q3 t ltac:(lia)). unfold pick.
    destruct (nth t l None) as [g|] eqn:G; auto. rewrite (rep_active _ _ _ R), G in Q3 by lia. cbn [andb] in Q3. rewrite Q3. auto.
  - apply flat_map_nil. intros t Ht. apply in_seq in Ht. destruct (Nat.lt_ge_cases t from) as [|Hf]; auto.
    specialize (Q t ltac:(lia)). unfold pick. destruct (nth t l None) as [g|] eqn:G; auto.
    rewrite (rep_active _ _ _ R), G in Q by lia. cbn [andb] in Q. rewrite Q. auto.
Qed.

Lemma iterate_node_ok : forall fuel p di, (length (sel i l p) < fuel)%nat -> slot_ok i p -> 0 <= doff_to_slot p -> 0 <= i < 2 ^ 40 ->
  exists c, iterate_node bsz plus fuel (mkRc p true di) n = c /\
    (rc_di c, rc_keep c) = feed bsz plus di (sel i l p) /\
    (rc_keep c = true -> rc_pos c = make_doffset (i + 1) 0).
Proof.
  induction fuel as [|k IH]; intros p di Hf K K0 Hb; [lia|]. cbn [iterate_node rc_keep negb rc_pos rc_di].
  pose proof (scan_ok p K K0) as Q. destruct (dtn_scan n p) as [s|].
  - destruct Q as (e & E1 & E2). rewrite E2 in *. cbn [length feed] in *. rewrite Hi.
    unfold emit. cbn [rc_pos rc_di]. destruct (rep_fields _ _ _ R s e E1) as (-> & -> & _). rewrite (rep_name _ _ _ R s e E1).
    unfold rec_of in *. pose proof (nth_some_lt _ _ _ E1) as Hs. pose proof l_bound as B.
    destruct (filldir bsz plus di (mkRdi (make_doffset i (Z.of_nat s)) (e_ino e) (e_dt e) (e_name e))) as [d ok].
    destruct ok; cbn [rc_keep rc_pos rc_di].
    + apply IH; auto; [lia| |].
      * intros t Ht Ht2. rewrite doffset_val in * by lia. rewrite dslot_val in Ht by lia. rewrite doffset_val by lia. lia.
      * rewrite doffset_val, dslot_val by (rewrite ?doffset_val by lia; lia). lia.
    + eexists. split; [reflexivity|]. cbn [rc_keep rc_di]. split; auto. discriminate.
  - rewrite Q. eexists. split; [reflexivity|]. cbn [rc_di rc_keep rc_pos feed]. rewrite Hi. auto.
Qed.
End NodeScan.

(* ---------- the records of the tree ---------- *)
Fixpoint zseq (lo : Z) (k : nat) : list Z := match k with O => [] | S k => lo :: zseq (lo + 1) k end.
Lemma zseq_in : forall k lo j, In j (zseq lo k) <-> lo <= j < lo + Z.of_nat k.
Proof.
  induction k; intros lo j; cbn [zseq In]; [lia|]. rewrite IHk. lia.
Qed.

(* nodes beyond this index are at depth 4 *)
Definition IDX3 : Z := 266305.

Section Tree.
Variables (bsz : Z) (plus : bool).
Variables (st : dirst) (am : amap) (lm : lmap).
Hypothesis T : tree (d_nodes st) am lm.
Variables (r : Z) (rn : dnode).
Hypothesis Hr : am 1 = Some r.
Hypothesis Hrn : d_nodes st r = Some rn.
Hypothesis Last : 1 <= d_last st <= DTREE_INDEX_MAX.

Definition nsel (p j : Z) : list rdi :=
  match am j with Some _ => if j <=? IDX3 then sel j (lm j) p else [] | None => [] end.
Definition tsel (lo p : Z) : list rdi := flat_map (nsel p) (zseq lo (Z.to_nat (d_last st - lo + 1))).

Lemma tsel_cons : forall lo p, lo <= d_last st -> tsel lo p = nsel p lo ++ tsel (lo + 1) p.
Proof.
  intros lo p H. unfold tsel. replace (Z.to_nat (d_last st - lo + 1)) with (S (Z.to_nat (d_last st - (lo + 1) + 1))) by lia.
  reflexivity.
Qed.
Lemma tsel_end : forall lo p, d_last st < lo -> tsel lo p = [].
Proof. intros lo p H. unfold tsel. replace (Z.to_nat (d_last st - lo + 1)) with O by lia. reflexivity. Qed.
Lemma tsel_skip : forall k lo p, (forall j, lo <= j < lo + Z.of_nat k -> am j = None) ->
  tsel lo p = tsel (lo + Z.of_nat k) p.
Proof.
  induction k; intros lo p H.
  - f_equal. lia.
  - destruct (Z.leb_spec lo (d_last st)).
    + rewrite tsel_cons by auto. unfold nsel. rewrite (H lo) by lia. cbn [app].
      rewrite IHk; [f_equal; lia|]. intros j Hj. apply H. lia.
    + rewrite !tsel_end by lia. reflexivity.
Qed.
Lemma sel_low : forall j l p q, (length l <= 480)%nat -> p <= make_doffset j 0 -> q <= make_doffset j 0 -> sel j l p = sel j l q.
Proof.
  intros j l p q B P Q. unfold sel. apply flat_map_ext_in. intros s Hs. apply in_seq in Hs. unfold pick.
  destruct (nth s l None); auto. rewrite doffset_val in * by lia.
  destruct (Z.leb_spec p ((j * 8192 + Z.of_nat s) * 4 + 2)); [|lia].
  destruct (Z.leb_spec q ((j * 8192 + Z.of_nat s) * 4 + 2)); [auto|lia].
Qed.
Lemma lm_bound : forall j, am j <> None -> (length (lm j) <= 480)%nat.
Proof.
  intros j H. destruct (am j) as [a|] eqn:E; [|congruence]. destruct (t_node _ _ _ T _ _ E) as (n & Hn & N).
  destruct (n_rep _ _ _ _ N) as (pos & R). exact (l_bound n (lm j) pos R).
Qed.
Lemma tsel_low : forall lo p q, p <= make_doffset lo 0 -> q <= make_doffset lo 0 -> tsel lo p = tsel lo q.
Proof.
  intros lo p q P Q. unfold tsel. apply flat_map_ext_in. intros j Hj. apply zseq_in in Hj. unfold nsel.
  destruct (am j) as [a|] eqn:E; auto. destruct (j <=? IDX3); auto. apply sel_low.
  - apply lm_bound. congruence.
  - rewrite doffset_val in * by lia. lia.
  - rewrite doffset_val in * by lia. lia.
Qed.

Lemma skip_null_spec : forall cs x, exists k, skip_null cs x = x + Z.of_nat k /\ (k <= length cs)%nat /\
  forall t, (t < k)%nat -> nth t cs 0 = NULL_OFF.
Proof.
  induction cs as [|c cs IH]; intros x; cbn [skip_null].
  - exists O. split; [lia|]. split; auto. intros; lia.
  - destruct (Z.eqb_spec c NULL_OFF).
    + destruct (IH (x + 1)) as (k & E & L & H). exists (S k). split; [lia|]. cbn [length]. split; [lia|].
      intros [|t] Ht; cbn [nth]; auto. apply H. lia.
    + exists O. split; [lia|]. split; [lia|]. intros; lia.
Qed.

Lemma next_node_ok : forall i a n, am i = Some a -> d_nodes st a = Some n ->
  exists k, next_node st n = Some (i + 1 + Z.of_nat k) /\ forall j, i < j < i + 1 + Z.of_nat k -> am j = None.
Proof.
  intros i a n Ha Hn. destruct (t_node _ _ _ T _ _ Ha) as (n' & Hn' & N). rewrite Hn in Hn'. inversion Hn'; subst n'.
  destruct (t_idx _ _ _ T _ _ Ha) as (Hi & _). unfold next_node. rewrite (n_par _ _ _ _ N), (n_idx _ _ _ _ N).
  destruct (Z.eqb_spec i 1) as [->|Hi1].
  - exists O. split; [reflexivity|]. intros j Hj. lia.
  - destruct (t_up _ _ _ T i) as [|U]; [congruence|congruence|].
    destruct (am (index_to_parent i)) as [pa|] eqn:P; [|congruence]. cbn [aoff].
    destruct (t_idx _ _ _ T _ _ P) as (_ & Hpa). destruct (Z.eqb_spec pa NULL_OFF); [unfold NULL_OFF in *; lia|].
    destruct (t_node _ _ _ T _ _ P) as (pn & Hpn & PN). rewrite Hpn.
    pose proof (ord_range i ltac:(lia)) as Ho.
    destruct (skip_null_spec (skipn (Z.to_nat (index_to_child_ord i + 1)) (dn_child pn)) (i + 1)) as (k & E & L & H).
    exists k. rewrite E. split; [reflexivity|]. intros j Hj.
    rewrite skipn_length, (n_len _ _ _ _ PN) in L.
    specialize (H (Z.to_nat (j - (i + 1))) ltac:(lia)).
    assert (NS : forall (x : list Z) c t, nth t (skipn c x) 0 = nth (c + t) x 0).
    { intros x c. revert x. induction c; intros [|y x] t; cbn [skipn Nat.add nth]; auto. destruct t; auto. }
    rewrite NS in H.
    pose proof (n_chd _ _ _ _ PN (index_to_child_ord i + (j - i)) ltac:(lia)) as C. unfold dtn_child in C.
    replace (Z.to_nat (index_to_child_ord i + 1) + Z.to_nat (j - (i + 1)))%nat with (Z.to_nat (index_to_child_ord i + (j - i))) in H by lia.
    rewrite (nth_indep _ _ 0) in C by (rewrite (n_len _ _ _ _ PN); lia). rewrite H in C.
    pose proof (child_of_parent i ltac:(lia)) as CP.
    replace (child_index_of (index_to_parent i) (index_to_child_ord i + (j - i))) with j in C.
    2:{ unfold child_index_of in *. lia. }
    destruct (am j) as [b|] eqn:B; auto. destruct (t_idx _ _ _ T _ _ B). cbn [aoff] in C. unfold NULL_OFF in C. lia.
Qed.

Lemma iterate_tree_S : forall k c root i, iterate_tree st bsz plus (S k) c root i =
    if negb (rc_keep c) then (DOk, c)
    else if negb (inrange st i) then (DOk, readdir_eos bsz plus c)
    else match stage_by_index st root i with
         | SErr DNoEnt => iterate_tree st bsz plus k c root (i + 1)
         | SErr e => (e, c)
         | SNode n =>
           let c1 := iterate_node bsz plus (S (Z.to_nat (dn_nde n))) c n in
           match next_node st n with
           | None => (DCorrupt, c1)
           | Some i1 => iterate_tree st bsz plus k c1 root i1
           end
         end.
Proof. reflexivity. Qed.

Lemma iterate_tree_ok : forall fuel i p di, 1 <= i -> (1 <= fuel)%nat -> d_last st - i + 2 <= Z.of_nat fuel ->
  p <= make_doffset (i + 1) 0 -> 0 <= doff_to_slot p ->
  (doff_to_slot p = 0 \/ (am i <> None /\ i <= IDX3 /\ slot_ok i p)) ->
  exists c, iterate_tree st bsz plus fuel (mkRc p true di) rn i = (DOk, c) /\ rc_keep c = false /\
    rc_di c = fst (feed bsz plus di (tsel i p ++ [eos])).
Proof.
  induction fuel as [|k IH]; intros i p di Hi Hf1 Hf Hp Hs0 Hs; [lia|]. rewrite iterate_tree_S. cbn [rc_keep negb].
  unfold inrange. destruct (Z.eqb_spec (d_last st) 0) as [|Hz]; [lia|]. destruct (Z.leb_spec i (d_last st)) as [Hl|Hl]; cbn [negb].
  2:{ eexists. split; [reflexivity|]. rewrite tsel_end by auto. unfold readdir_eos, emit. cbn [rc_keep rc_di rc_pos app feed].
      unfold eos. destruct (filldir bsz plus di (mkRdi (-1) 0 0 [])) as [d []]; cbn [rc_keep rc_di fst]; auto. }
  unfold DTREE_INDEX_MAX in Last.
  pose proof (stage_ok st am lm T r rn i Hr Hrn ltac:(lia)) as S. rewrite tsel_cons by auto. unfold nsel.
  destruct (am i) as [a|] eqn:A.
  - destruct S as (n & Hn & ->). fold IDX3. destruct (Z.leb_spec i IDX3) as [H3|H3].
    + destruct (t_node _ _ _ T _ _ A) as (n' & Hn' & N). rewrite Hn in Hn'. inversion Hn'; subst n'.
      destruct (n_rep _ _ _ _ N) as (pos & R). cbv zeta.
      assert (SO : slot_ok i p).
      { destruct Hs as [Hs|(_ & _ & Hs)]; auto. intros t Ht. lia. }
      destruct (iterate_node_ok bsz plus n i (lm i) pos R (n_idx _ _ _ _ N) (Datatypes.S (Z.to_nat (dn_nde n))) p di) as (c & -> & C1 & C2); auto.
      { pose proof (sel_len i (lm i) p). pose proof (r_nde _ _ _ R). lia. }
      { lia. }
      destruct (next_node_ok i a n A Hn) as (m & -> & Hm). rewrite <- app_assoc, feed_app. rewrite <- C1.
      destruct k as [|k]; [lia|]. destruct c as [cp ck cd]. cbn [rc_keep rc_di rc_pos] in *. destruct ck.
      * rewrite (C2 eq_refl).
        rewrite (tsel_low (i + 1) p (make_doffset (i + 1) 0)) by lia.
        rewrite (tsel_skip m (i + 1)). 2:{ intros j Hj. apply Hm. lia. }
        apply IH; try lia.
        -- rewrite !doffset_val by lia. lia.
        -- rewrite doffset_val, dslot_val by (rewrite ?doffset_val by lia; lia). lia.
        -- left. rewrite doffset_val, dslot_val by (rewrite ?doffset_val by lia; lia). lia.
      * rewrite iterate_tree_S. cbn [rc_keep negb fst]. eexists. split; [reflexivity|]. auto.
    + cbn [app]. apply IH; try lia.
      rewrite doffset_val in * by lia. lia.
  - rewrite S. cbn [app]. apply IH; try lia.
    + rewrite doffset_val in * by lia. lia.
    + left. destruct Hs as [Hs|(Hs & _)]; auto. congruence.
Qed.
End Tree.

(* ---------- one call ---------- *)
Section Call.
Variable hashf : Z -> bytes -> Z.
Variables (bsz : Z) (plus : bool) (self_ino parent_ino : Z).
Hypothesis Hself : 0 < self_ino.
Hypothesis Hpar : 0 < parent_ino.
Variables (st : dirst) (am : amap) (lm : lmap) (m : list (bytes * (Z * Z))).
Hypothesis I : inv hashf st am lm m.

Definition dots : list rdi := [mkRdi 0 self_ino 4 [46]; mkRdi 1 parent_ino 4 [46; 46]].
(* the listed entries at or after a position *)
Definition ents (p : Z) : list rdi := match am 1 with None => [] | Some _ => tsel st am lm 1 p end.
Definition recs (p : Z) : list rdi :=
  if p <? 0 then [] else filter (fun x => p <=? rd_off x) dots ++ ents p.
(* positions handed out by a listing *)
Definition goodpos (p : Z) : Prop :=
  p < 0 \/ p = 0 \/ p = 1 \/ exists j t, am j <> None /\ j <= IDX3 /\ 0 <= t < 480 /\ p = make_doffset j t.

Lemma root_some : forall j, am j <> None -> exists r, am 1 = Some r.
Proof.
  intros j H. pose proof (i_tree _ _ _ _ _ I) as T. destruct (am 1) as [r|] eqn:R; eauto.
  destruct (tree_empty hashf _ _ _ T R) as (Q & _). rewrite Q in H. congruence.
Qed.

Lemma tsel_from : forall j t p, 1 <= j -> 0 <= t < 480 -> p = make_doffset j t ->
  tsel st am lm 1 p = tsel st am lm j p.
Proof.
  intros j t p Hj Ht ->. pose proof (i_tree _ _ _ _ _ I) as T.
  assert (G : forall k lo, lo + Z.of_nat k = j -> 1 <= lo -> tsel st am lm lo (make_doffset j t) = tsel st am lm j (make_doffset j t)).
  { induction k; intros lo H L; [f_equal; lia|].
    destruct (Z.leb_spec lo (d_last st)).
    - rewrite tsel_cons by auto. rewrite IHk by lia. unfold nsel. destruct (am lo) as [a|] eqn:A; auto.
      destruct (lo <=? IDX3); auto. unfold sel. rewrite flat_map_nil; auto. intros s Hs. apply in_seq in Hs.
      pose proof (lm_bound st am lm T lo ltac:(congruence)). unfold pick. destruct (nth s (lm lo) None); auto.
      rewrite !doffset_val by lia.
      destruct (Z.leb_spec ((j * 8192 + t) * 4 + 2) ((lo * 8192 + Z.of_nat s) * 4 + 2)); auto. lia.
    - rewrite !tsel_end by lia. reflexivity. }
  apply (G (Z.to_nat (j - 1))); lia.
Qed.

Lemma iterate_ok : forall p di r, am 1 = Some r -> (p = 2 \/ exists j t, am j <> None /\ j <= IDX3 /\ 0 <= t < 480 /\ p = make_doffset j t) ->
  exists c, iterate st bsz plus (mkRc p true di) = (DOk, c) /\ rc_di c = fst (feed bsz plus di (tsel st am lm 1 p ++ [eos])).
Proof.
  intros p di r Hr Hp. pose proof (i_tree _ _ _ _ _ I) as T.
  destruct (i_last _ _ _ _ _ I) as (L1 & _ & L3); [congruence|].
  destruct (t_node _ _ _ T _ _ Hr) as (rn & Hrn & RN). destruct (t_idx _ _ _ T _ _ Hr) as (_ & Hr0).
  unfold iterate. rewrite (i_root _ _ _ _ _ I), Hr. cbn [aoff].
  destruct (Z.eqb_spec r NULL_OFF) as [|Hrz]; [unfold NULL_OFF in *; lia|]. cbn [rc_pos]. rewrite Hrn.
  pose proof L1 as L1'. unfold DTREE_INDEX_MAX in L1'.
  assert (NZ : d_last st =? 0 = false) by lia.
  destruct Hp as [->|(j & t & Hj & Hj3 & Ht & Ep)].
  - change (doff_to_index 2) with 0. unfold inrange at 1. rewrite NZ. replace (0 <=? d_last st) with true by lia. cbn [negb].
    replace (Z.to_nat (d_last st - 0 + 3)) with (S (Z.to_nat (d_last st + 2))) by lia.
    assert (E : iterate_tree st bsz plus (S (Z.to_nat (d_last st + 2))) (mkRc 2 true di) rn 0 =
                iterate_tree st bsz plus (S (Z.to_nat (d_last st + 2))) (mkRc 2 true di) rn 1).
    { rewrite !iterate_tree_S. unfold inrange. rewrite NZ. replace (0 <=? d_last st) with true by lia.
      replace (1 <=? d_last st) with true by lia. cbn [negb rc_keep].
      change (stage_by_index st rn 0) with (SNode rn). change (stage_by_index st rn 1) with (SNode rn). reflexivity. }
    rewrite E.
    destruct (iterate_tree_ok bsz plus st am lm T r rn Hr Hrn L1 (S (Z.to_nat (d_last st + 2))) 1 2 di) as (c & -> & C1 & C2); try lia.
    + rewrite doffset_val by lia. lia.
    + rewrite dslot_val by lia. lia.
    + left. rewrite dslot_val by lia. lia.
    + rewrite C1. exists c. auto.
  - assert (Hja : 1 <= j <= d_last st).
    { destruct (am j) as [a|] eqn:A; [|congruence]. destruct (t_idx _ _ _ T _ _ A). split; [lia|]. apply L3. congruence. }
    assert (Ei : doff_to_index p = j).
    { subst p. rewrite doffset_val, dindex_val by (rewrite ?doffset_val by lia; lia).
      replace (((j * 8192 + t) * 4 + 2) / 32768) with j by lia. destruct (Z.leb_spec j (2 ^ 24)); lia. }
    assert (Es : doff_to_slot p = t).
    { subst p. rewrite doffset_val, dslot_val by (rewrite ?doffset_val by lia; lia). lia. }
    rewrite Ei. unfold inrange at 1. rewrite NZ. replace (j <=? d_last st) with true by lia. cbn [negb].
    destruct (iterate_tree_ok bsz plus st am lm T r rn Hr Hrn L1 (Z.to_nat (d_last st - j + 3)) j p di) as (c & -> & C1 & C2); try lia.
    + subst p. rewrite !doffset_val by lia. lia.
    + right. split; auto. split; auto. intros s Hs Hs2. subst p. rewrite !doffset_val by lia. lia.
    + rewrite C1. exists c. split; auto. rewrite (tsel_from j t p) by (auto; lia). exact C2.
Qed.

Lemma inrange_root : forall p, 0 <= p -> am 1 = None -> negb ((0 <=? p) && inrange st (doff_to_index p)) = true.
Proof.
  intros p Hp R. unfold inrange. rewrite (i_last0 _ _ _ _ _ I R). cbn. rewrite andb_false_r. reflexivity.
Qed.
Lemma inrange_node : forall p r, am 1 = Some r -> (p = 2 \/ exists j t, am j <> None /\ j <= IDX3 /\ 0 <= t < 480 /\ p = make_doffset j t) ->
  negb ((0 <=? p) && inrange st (doff_to_index p)) = false.
Proof.
  intros p r Hr Hp. pose proof (i_tree _ _ _ _ _ I) as T. destruct (i_last _ _ _ _ _ I) as (L1 & _ & L3); [congruence|].
  unfold inrange. replace (d_last st =? 0) with false by lia. unfold DTREE_INDEX_MAX in L1.
  destruct Hp as [->|(j & t & Hj & Hj3 & Ht & ->)].
  - change (doff_to_index 2) with 0. lia.
  - assert (Hja : 1 <= j <= d_last st).
    { destruct (am j) as [a|] eqn:A; [|congruence]. destruct (t_idx _ _ _ T _ _ A). split; [lia|]. apply L3. congruence. }
    rewrite doffset_val, dindex_val by (rewrite ?doffset_val by lia; lia).
    replace (((j * 8192 + t) * 4 + 2) / 32768) with j by lia. destruct (Z.leb_spec j (2 ^ 24)); lia.
Qed.

(* everything after "." and ".." *)
Definition rest (p : Z) (di : diter) : derr * list rdi :=
  if negb ((0 <=? p) && inrange st (doff_to_index p)) then (DOk, di_out (rc_di (readdir_eos bsz plus (mkRc p true di))))
  else let (e, c3) := iterate st bsz plus (mkRc p true di) in (e, di_out (rc_di c3)).
Lemma eos_out : forall p di, rc_di (readdir_eos bsz plus (mkRc p true di)) = fst (feed bsz plus di [eos]).
Proof.
  intros. unfold readdir_eos, emit, eos. cbn [rc_keep rc_di rc_pos feed].
  destruct (filldir bsz plus di (mkRdi (-1) 0 0 [])) as [d []]; reflexivity.
Qed.
Lemma rest_ok : forall p di, (p = 2 \/ exists j t, am j <> None /\ j <= IDX3 /\ 0 <= t < 480 /\ p = make_doffset j t) ->
  rest p di = (DOk, di_out (fst (feed bsz plus di (ents p ++ [eos])))).
Proof.
  intros p di Hp. unfold rest, ents. destruct (am 1) as [r|] eqn:R.
  - rewrite (inrange_node p r R Hp). destruct (iterate_ok p di r R Hp) as (c & -> & ->). reflexivity.
  - destruct Hp as [->|(j & t & Hj & _)].
    + rewrite inrange_root by (auto; lia). rewrite eos_out. reflexivity.
    + destruct (root_some j Hj). congruence.
Qed.
Lemma ents_low : forall p q, 0 <= p <= 2 -> 0 <= q <= 2 -> ents p = ents q.
Proof.
  intros p q Hp Hq. unfold ents. destruct (am 1) as [r|]; auto.
  apply (tsel_low st am lm (i_tree _ _ _ _ _ I)); rewrite doffset_val by lia; lia.
Qed.

Lemma readdir_feed : forall p, goodpos p ->
  readdir st bsz plus self_ino parent_ino p = (DOk, di_out (fst (feed bsz plus (mkDi no_rdi 0 []) (recs p ++ [eos])))).
Proof.
  intros p Hp. unfold readdir.
  assert (Hg : p < 0 \/ p = 0 \/ p = 1 \/ (2 <= p /\ exists j t, am j <> None /\ j <= IDX3 /\ 0 <= t < 480 /\ p = make_doffset j t)).
  { destruct Hp as [|[|[|(j & t & Hj & H)]]]; auto. right. right. right. split; [|exists j, t; auto].
    destruct H as (_ & Ht & ->). rewrite doffset_val by lia.
    destruct (am j) as [a|] eqn:A; [|congruence]. destruct (t_idx _ _ _ (i_tree _ _ _ _ _ I) _ _ A). lia. }
  unfold recs. destruct Hg as [H|[->|[->|(H2 & H)]]].
  - destruct (Z.ltb_spec p 0); [|lia]. destruct (Z.eqb_spec p 0); [lia|]. cbn [rc_pos].
    destruct (Z.eqb_spec p 1); [lia|]. cbn [andb rc_pos].
    destruct (Z.leb_spec 0 p); [lia|]. cbn [andb negb]. rewrite eos_out. reflexivity.
  - cbn [Z.ltb Z.compare Z.eqb]. unfold dots. cbn [filter Z.leb Z.compare rd_off app feed].
    unfold emit at 1. cbn [rc_pos rc_di]. unfold emit. cbn [rc_pos rc_keep rc_di].
    change (filldir bsz plus (mkDi no_rdi 0 []) (mkRdi 0 self_ino 4 [46])) with (mkDi (mkRdi 0 self_ino 4 [46]) 0 [], true).
    cbn [rc_pos rc_keep rc_di andb Z.eqb Pos.eqb].
    destruct (filldir bsz plus (mkDi (mkRdi 0 self_ino 4 [46]) 0 []) (mkRdi 1 parent_ino 4 [46; 46])) as [d ok].
    cbn [rc_pos rc_keep rc_di]. destruct ok.
    + transitivity (rest 2 d); [reflexivity|]. rewrite rest_ok by auto. rewrite (ents_low 2 0) by lia. reflexivity.
    + reflexivity.
  - cbn [Z.ltb Z.compare Z.eqb Pos.eqb]. unfold dots. cbn [filter Z.leb Z.compare rd_off app feed rc_pos andb Pos.compare Pos.compare_cont].
    unfold emit. cbn [rc_pos rc_keep rc_di].
    destruct (filldir bsz plus (mkDi no_rdi 0 []) (mkRdi 1 parent_ino 4 [46; 46])) as [d ok] eqn:F.
    cbn [rc_pos rc_keep rc_di]. destruct ok.
    + transitivity (rest 2 d); [reflexivity|]. rewrite rest_ok by auto. rewrite (ents_low 2 1) by lia. reflexivity.
    + reflexivity.
  - destruct (Z.ltb_spec p 0); [lia|]. destruct (Z.eqb_spec p 0); [lia|]. cbn [rc_pos].
    destruct (Z.eqb_spec p 1); [lia|]. cbn [andb rc_pos].
    unfold dots. cbn [filter rd_off]. destruct (Z.leb_spec p 0); [lia|]. destruct (Z.leb_spec p 1); [lia|]. cbn [app].
    fold (rest p (mkDi no_rdi 0 [])). apply rest_ok. auto.
Qed.

Lemma sel_in : forall i l p x, In x (sel i l p) <->
  exists s e, nth s l None = Some e /\ p <= make_doffset i (Z.of_nat s) /\ x = rec_of i s e.
Proof.
  intros i l p x. unfold sel. rewrite in_flat_map. split.
  - intros (s & _ & H). unfold pick in H. destruct (nth s l None) as [e|] eqn:E; [|contradiction].
    destruct (Z.leb_spec p (make_doffset i (Z.of_nat s))); [|contradiction].
    destruct H as [<-|[]]. exists s, e. auto.
  - intros (s & e & E & P & ->). exists s. split; [apply in_seq; pose proof (nth_some_lt _ _ _ E); lia|].
    unfold pick. rewrite E. destruct (Z.leb_spec p (make_doffset i (Z.of_nat s))); [left; auto|lia].
Qed.
Lemma ents_in : forall p x, In x (ents p) <->
  exists i s e, sits am lm i s e /\ i <= IDX3 /\ p <= make_doffset i (Z.of_nat s) /\ x = rec_of i s e.
Proof.
  intros p x. pose proof (i_tree _ _ _ _ _ I) as T. unfold ents. destruct (am 1) as [r|] eqn:R.
  - destruct (i_last _ _ _ _ _ I) as (L1 & _ & L3); [congruence|].
    unfold tsel. rewrite in_flat_map. split.
    + intros (j & _ & H). unfold nsel in H. destruct (am j) as [a|] eqn:A; [|contradiction].
      destruct (Z.leb_spec j IDX3); [|contradiction]. apply sel_in in H. destruct H as (s & e & E & P & ->).
      exists j, s, e. split; [split; [congruence|auto]|auto].
    + intros (j & s & e & (A & E) & H3 & P & ->). exists j. destruct (am j) as [a|] eqn:Aj; [|congruence].
      destruct (t_idx _ _ _ T _ _ Aj). specialize (L3 j ltac:(congruence)).
      split; [apply zseq_in; lia|]. unfold nsel. rewrite Aj. destruct (Z.leb_spec j IDX3); [|lia]. apply sel_in. exists s, e. auto.
  - split; [contradiction|]. intros (j & s & e & (A & _) & _). destruct (root_some j A). congruence.
Qed.
Lemma sits_dent : forall i s e, sits am lm i s e -> dent_ok e /\ 1 <= i <= 2 ^ 24 /\ (s < 480)%nat.
Proof.
  intros i s e (A & E). pose proof (i_tree _ _ _ _ _ I) as T. destruct (am i) as [a|] eqn:Ai; [|congruence].
  destruct (t_node _ _ _ T _ _ Ai) as (n & Hn & N). destruct (n_rep _ _ _ _ N) as (pos & R).
  destruct (r_ent _ _ _ R s e E) as (D & _). destruct (t_idx _ _ _ T _ _ Ai) as (B & _). unfold DTREE_INDEX_MAX in B.
  split; auto. split; [lia|]. pose proof (nth_some_lt _ _ _ E). pose proof (l_bound _ _ _ R). lia.
Qed.

(* strictly increasing positions *)
Fixpoint incr (l : list rdi) : Prop :=
  match l with
  | [] => True
  | x :: t => Forall (fun y => rd_off x < rd_off y) t /\ incr t
  end.
Lemma incr_app : forall a b, incr a -> incr b -> (forall x y, In x a -> In y b -> rd_off x < rd_off y) -> incr (a ++ b).
Proof.
  induction a as [|x a IH]; intros b A B H; cbn [app incr] in *; auto. destruct A as (A1 & A2). split.
  - apply Forall_app. split; auto. apply Forall_forall. intros y Hy. apply H; [left|]; auto.
  - apply IH; auto. intros u v Hu Hv. apply H; [right|]; auto.
Qed.
Lemma sel_incr : forall i l p, (length l <= 480)%nat -> incr (sel i l p).
Proof.
  intros i l p B. unfold sel.
  assert (G : forall k a, (a + k <= 480)%nat -> incr (flat_map (pick i l p) (seq a k))).
  { induction k; intros a Ha; cbn [seq flat_map]; [exact Logic.I|]. apply incr_app.
    - unfold pick. destruct (nth a l None); [|exact Logic.I]. destruct (p <=? _); cbn; auto.
    - apply IHk. lia.
    - intros x y Hx Hy. apply in_flat_map in Hy. destruct Hy as (b & Hb & Hy). apply in_seq in Hb. unfold pick in *.
      destruct (nth a l None); [|contradiction]. destruct (p <=? make_doffset i (Z.of_nat a)); [|contradiction]. destruct Hx as [<-|[]].
      destruct (nth b l None); [|contradiction]. destruct (p <=? make_doffset i (Z.of_nat b)); [|contradiction]. destruct Hy as [<-|[]].
      cbn [rec_of rd_off]. apply doff_lt; lia. }
  apply G. lia.
Qed.
Lemma ents_incr : forall p, incr (ents p).
Proof.
  intros p. pose proof (i_tree _ _ _ _ _ I) as T. unfold ents. destruct (am 1) as [r|]; [|exact Logic.I]. unfold tsel.
  generalize (Z.to_nat (d_last st - 1 + 1)). generalize 1.
  assert (G : forall k lo, incr (flat_map (nsel am lm p) (zseq lo k))); [|intros; apply G].
  induction k; intros lo; cbn [zseq flat_map]; [exact Logic.I|]. apply incr_app; auto.
  - unfold nsel. destruct (am lo) as [a|] eqn:A; [|exact Logic.I]. destruct (lo <=? IDX3); [|exact Logic.I].
    apply sel_incr. apply (lm_bound st am lm T). congruence.
  - intros x y Hx Hy. apply in_flat_map in Hy. destruct Hy as (j & Hj & Hy). apply zseq_in in Hj. unfold nsel in *.
    destruct (am lo) as [a|] eqn:A; [|contradiction]. destruct (lo <=? IDX3); [|contradiction].
    destruct (am j) as [b|] eqn:B; [|contradiction]. destruct (j <=? IDX3); [|contradiction].
    apply sel_in in Hx. destruct Hx as (s & e & E & _ & ->). apply sel_in in Hy. destruct Hy as (t & g & G & _ & ->).
    cbn [rec_of rd_off]. pose proof (nth_some_lt _ _ _ E). pose proof (nth_some_lt _ _ _ G).
    pose proof (lm_bound st am lm T lo ltac:(congruence)). pose proof (lm_bound st am lm T j ltac:(congruence)).
    rewrite !doffset_val by lia. lia.
Qed.
Lemma ents_ge : forall p x, In x (ents p) -> 2 <= rd_off x /\ p <= rd_off x.
Proof.
  intros p x H. apply ents_in in H. destruct H as (i & s & e & S & _ & P & ->). destruct (sits_dent _ _ _ S) as (_ & B & C).
  cbn [rec_of rd_off]. split; auto. rewrite doffset_val by lia. lia.
Qed.
Lemma recs_incr : forall p, incr (recs p).
Proof.
  intros p. unfold recs. destruct (p <? 0); [exact Logic.I|]. apply incr_app.
  - unfold dots. cbn [filter rd_off]. destruct (p <=? 0); destruct (p <=? 1); cbn; repeat split; auto; constructor; auto; cbn; lia.
  - apply ents_incr.
  - intros x y Hx Hy. apply ents_ge in Hy. apply filter_In in Hx. destruct Hx as (Hx & _).
    destruct Hx as [<-|[<-|[]]]; cbn [rd_off]; lia.
Qed.
Lemma recs_live : forall p, Forall live (recs p).
Proof.
  intros p. apply Forall_forall. intros x H. unfold recs in H. destruct (p <? 0); [contradiction|].
  apply in_app_or in H. destruct H as [H|H].
  - apply filter_In in H. destruct H as (H & _). destruct H as [<-|[<-|[]]]; unfold live; cbn; lia.
  - apply ents_in in H. destruct H as (i & s & e & S & _ & _ & ->). destruct (sits_dent _ _ _ S) as ((D1 & D2 & D3) & _).
    unfold live, elen in *. cbn [rec_of rd_ino rd_name]. lia.
Qed.
Lemma recs_in : forall p x, 0 <= p -> In x (recs p) <-> In x (recs 0) /\ p <= rd_off x.
Proof.
  intros p x Hp. unfold recs. destruct (Z.ltb_spec p 0); [lia|]. change (0 <? 0) with false. cbn iota.
  rewrite !in_app_iff, !filter_In, !ents_in. split.
  - intros [(H1 & H2)|(i & s & e & S & H3 & P & ->)].
    + split; [left; split; auto|lia]. lia.
    + cbn [rec_of rd_off]. split; [right; exists i, s, e; split; auto; split; auto; split; auto; lia|auto].
  - intros ([(H1 & H2)|(i & s & e & S & H3 & P & ->)] & Q).
    + left. split; auto. lia.
    + right. exists i, s, e. auto.
Qed.
End Call.

(* increasing lists with the same members are equal *)
Lemma incr_ext : forall a b, incr a -> incr b -> (forall x, In x a <-> In x b) -> a = b.
Proof.
  induction a as [|x a IH]; intros [|y b] A B H; auto.
  - exfalso. apply (H y). left. auto.
  - exfalso. apply (H x). left. auto.
  - cbn [incr] in *. destruct A as (A1 & A2), B as (B1 & B2). rewrite Forall_forall in *.
    assert (x = y).
    { assert (X : In x (y :: b)) by (apply H; left; auto). assert (Y : In y (x :: a)) by (apply H; left; auto).
      destruct X as [|X]; auto. destruct Y as [|Y]; auto. specialize (A1 _ Y). specialize (B1 _ X). lia. }
    subst y. f_equal. apply IH; auto. intros z. split; intros Hz.
    + assert (Q : In z (x :: b)) by (apply H; right; auto). destruct Q as [<-|]; auto. specialize (A1 _ Hz). lia.
    + assert (Q : In z (x :: a)) by (apply H; right; auto). destruct Q as [<-|]; auto. specialize (B1 _ Hz). lia.
Qed.
Lemma incr_tail : forall a x b, incr (a ++ x :: b) -> incr (x :: b) /\ (forall y, In y a -> rd_off y < rd_off x).
Proof.
  induction a as [|y a IH]; intros x b H; cbn [app] in H.
  - split; auto. contradiction.
  - cbn [incr] in H. destruct H as (H1 & H2). destruct (IH x b H2) as (I1 & I2). split; auto.
    intros z [<-|Hz]; auto. rewrite Forall_forall in H1. apply H1. apply in_or_app. right. left. auto.
Qed.
