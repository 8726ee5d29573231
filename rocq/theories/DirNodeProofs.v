(* Proofs about one directory-tree node: the bytes of a node always represent a list of
   slots, and insert/remove act on that list as intended. *)
From Verif Require Import Base DirNodeModel.

(* ---- what a node is meant to hold ---- *)
Record dent := mkDent { e_ino : Z; e_dt : Z; e_hash : Z; e_name : bytes }.
Notation dslot := (option dent).
Definition elen (e : dent) : Z := zlen (e_name e).
Definition olen (o : dslot) : Z := match o with Some e => elen e | None => 0 end.
Definition names_len (l : list dslot) : Z := zsum (map olen l).

Definition dent_ok (e : dent) : Prop :=
  0 < e_ino e < 2 ^ 64 /\ 0 <= e_dt e < 256 /\ 1 <= elen e <= 255.

(* put in the first free slot, or at the end *)
Fixpoint slots_insert (l : list dslot) (e : dent) : list dslot :=
  match l with
  | [] => [Some e]
  | None :: r => Some e :: r
  | Some x :: r => Some x :: slots_insert r e
  end.
(* drop free slots at the end *)
Fixpoint slots_trim (l : list dslot) : list dslot :=
  match l with
  | [] => []
  | x :: r => match x with
              | Some _ => x :: slots_trim r
              | None => match slots_trim r with [] => [] | y :: r' => None :: y :: r' end
              end
  end.
Definition slots_remove (l : list dslot) (s : nat) : list dslot := slots_trim (upd l s None).
Fixpoint slot_new (l : list dslot) : nat :=
  match l with
  | [] => O
  | None :: _ => O
  | Some _ :: r => S (slot_new r)
  end.

(* ---- the entry bytes ---- *)
Definition eb (e : dent) (p : Z) : bytes := de_bytes (e_ino e) (e_dt e) (e_hash e) (elen e) p.

Lemma zlen_de_bytes : forall a b c d e, zlen (de_bytes a b c d e) = 16.
Proof. intros. unfold de_bytes. rewrite !zlen_app, !zlen_le_enc. reflexivity. Qed.

Lemma hash_dt_lor : forall h dt, 0 <= dt < 256 ->
  Z.lor (Z.shiftl dt 24) (Z.land h HASH_MASK) = dt * 2 ^ 24 + h mod 2 ^ 24.
Proof.
  intros h dt Hd. unfold HASH_MASK. replace 16777215 with (Z.ones 24) by reflexivity.
  rewrite Z.land_ones by lia. rewrite Z.shiftl_mul_pow2 by lia.
  symmetry. rewrite Z.add_nocarry_lxor.
  - apply Z.bits_inj'. intros i Hi. rewrite Z.lxor_spec, Z.lor_spec.
    destruct (Z_lt_le_dec i 24).
    + rewrite Z.mul_pow2_bits_low by lia. destruct (Z.testbit (h mod 2 ^ 24) i); reflexivity.
    + rewrite (Z.mod_pow2_bits_high h) by lia. destruct (Z.testbit (dt * 2 ^ 24) i); reflexivity.
  - apply Z.bits_inj'. intros i Hi. rewrite Z.land_spec, Z.bits_0.
    destruct (Z_lt_le_dec i 24).
    + rewrite Z.mul_pow2_bits_low by lia. reflexivity.
    + rewrite (Z.mod_pow2_bits_high h) by lia. apply andb_false_r.
Qed.

Section Entry.
Variables (d : bytes) (s : nat).
Hypothesis Hlen : 16 * Z.of_nat s + 16 <= zlen d.

Lemma sub_field : forall o n, 0 <= o -> 0 <= n -> o + n <= 16 ->
  zsub (16 * Z.of_nat s + o) n d = zsub o n (zsub (16 * Z.of_nat s) 16 d).
Proof. intros. rewrite zsub_zsub; try lia. reflexivity. Qed.

Lemma fields_of : forall ino dt h nl p,
  zsub (16 * Z.of_nat s) 16 d = de_bytes ino dt h nl p ->
  0 <= ino < 2 ^ 64 -> 0 <= dt < 256 -> 0 <= nl < 65536 -> 0 <= p < 65536 ->
  de_ino d s = ino /\ de_dt d s = dt /\ de_name_hash d s = Z.land h HASH_MASK /\
  de_name_len d s = nl /\ de_name_pos d s = p.
Proof.
  intros ino dt h nl p E Hi Hd Hn Hp.
  assert (Hh : de_hash_dt d s = dt * 2 ^ 24 + h mod 2 ^ 24).
  { unfold de_hash_dt, DE_SIZE. rewrite sub_field, E by lia. unfold de_bytes.
    rewrite zsub_app_r, zlen_le_enc by (rewrite zlen_le_enc; lia).
    rewrite zsub_prefix by (rewrite zlen_le_enc; reflexivity).
    rewrite hash_dt_lor by lia. unfold u32. rewrite le_dec_enc; [lia|]. cbn. lia. }
  repeat split.
  - unfold de_ino, DE_SIZE. rewrite <- (Z.add_0_r (16 * Z.of_nat s)).
    rewrite sub_field, E by lia. unfold de_bytes.
    rewrite zsub_prefix by (rewrite zlen_le_enc; reflexivity).
    unfold u64. rewrite le_dec_enc; cbn; lia.
  - unfold de_dt. rewrite Hh. rewrite Z.shiftr_div_pow2 by lia. lia.
  - unfold de_name_hash. rewrite Hh. unfold HASH_MASK.
    replace 16777215 with (Z.ones 24) by reflexivity. rewrite !Z.land_ones by lia. lia.
  - unfold de_name_len, DE_SIZE. rewrite sub_field, E by lia. unfold de_bytes.
    rewrite zsub_app_r by (rewrite zlen_le_enc; lia).
    rewrite zsub_app_r by (rewrite !zlen_le_enc; lia). rewrite !zlen_le_enc.
    rewrite zsub_prefix by (rewrite zlen_le_enc; reflexivity).
    unfold u16. rewrite le_dec_enc; cbn; lia.
  - unfold de_name_pos, DE_SIZE. rewrite sub_field, E by lia. unfold de_bytes.
    rewrite zsub_app_r by (rewrite zlen_le_enc; lia).
    rewrite zsub_app_r by (rewrite !zlen_le_enc; lia).
    rewrite zsub_app_r by (rewrite !zlen_le_enc; lia). rewrite !zlen_le_enc.
    rewrite <- (app_nil_r (le_enc 2 _)).
    rewrite zsub_prefix by (rewrite zlen_le_enc; reflexivity).
    unfold u16. rewrite le_dec_enc; cbn; lia.
Qed.

Lemma zsub_write_self : forall b, zlen b = 16 ->
  zsub (16 * Z.of_nat s) 16 (de_write d s b) = b.
Proof.
  intros b Hb. unfold de_write, DE_SIZE. pose proof (zsub_zput_same _ d b (16 * Z.of_nat s)) as Q.
  rewrite Hb in Q. apply Q; lia.
Qed.

Lemma zsub_set_pos_self : forall ino dt h nl p q,
  zsub (16 * Z.of_nat s) 16 d = de_bytes ino dt h nl p ->
  zsub (16 * Z.of_nat s) 16 (de_set_pos d s q) = de_bytes ino dt h nl q.
Proof.
  intros ino dt h nl p q E.
  assert (H2 : zlen (le_enc 2 (u16 q)) = 2) by (rewrite zlen_le_enc; reflexivity).
  set (pre := le_enc 8 (u64 ino) ++ le_enc 4 (u32 (Z.lor (Z.shiftl dt 24) (Z.land h HASH_MASK))) ++ le_enc 2 (u16 nl)).
  assert (B : forall r, de_bytes ino dt h nl r = pre ++ le_enc 2 (u16 r)).
  { intros. unfold de_bytes, pre. rewrite <- !app_assoc. reflexivity. }
  assert (Lp : zlen pre = 14) by (unfold pre; rewrite !zlen_app, !zlen_le_enc; reflexivity).
  clearbody pre. rewrite B in E |- *.
  apply (znth_ext _ 0).
  - unfold de_set_pos, DE_SIZE. rewrite zlen_zsub by (rewrite ?zlen_zput; lia).
    rewrite zlen_app. lia.
  - unfold de_set_pos, DE_SIZE. rewrite zlen_zsub by (rewrite ?zlen_zput; lia).
    intros i Hi. rewrite znth_zsub by lia. rewrite znth_zput by lia.
    rewrite znth_app, Lp, H2 by lia.
    destruct (Z.ltb_spec i 14) as [Hl|Hl].
    + replace ((16 * Z.of_nat s + 14 <=? 16 * Z.of_nat s + i) && (16 * Z.of_nat s + i <? 16 * Z.of_nat s + 14 + 2)) with false by lia.
      replace (znth pre i 0) with (znth (pre ++ le_enc 2 (u16 p)) i 0).
      * rewrite <- E. rewrite znth_zsub by lia. reflexivity.
      * rewrite znth_app by lia. replace (i <? zlen pre) with true by lia. reflexivity.
    + replace ((16 * Z.of_nat s + 14 <=? 16 * Z.of_nat s + i) && (16 * Z.of_nat s + i <? 16 * Z.of_nat s + 14 + 2)) with true by lia.
      f_equal. lia.
Qed.
End Entry.

(* ---- the representation ---- *)
Definition nbeg (n : dnode) : Z := DN_NBUF - dn_nnb n.

Record rep (n : dnode) (l : list dslot) (pos : nat -> Z) : Prop := mkRep {
  r_len : zlen (dn_data n) = 7680;
  r_nde : dn_nde n = Z.of_nat (length l);
  r_nnb : dn_nnb n = names_len l;
  r_fit : 16 * dn_nde n + dn_nnb n <= 7680;
  r_last : l = [] \/ nth (length l - 1) l None <> None;
  r_ent : forall s e, nth s l None = Some e ->
    dent_ok e /\ nbeg n <= pos s /\ pos s + elen e <= 7680 /\
    zsub (16 * Z.of_nat s) 16 (dn_data n) = eb e (pos s) /\
    zsub (pos s) (elen e) (dn_data n) = e_name e;
  r_none : forall s, (s < length l)%nat -> nth s l None = None ->
    zsub (16 * Z.of_nat s) 16 (dn_data n) = de_zero;
  r_disj : forall s t e g, s <> t -> nth s l None = Some e -> nth t l None = Some g ->
    pos s + elen e <= pos t \/ pos t + elen g <= pos s }.

Lemma nth_some_lt : forall (l : list dslot) s e, nth s l None = Some e -> (s < length l)%nat.
Proof.
  intros l s e H. destruct (Nat.lt_ge_cases s (length l)); auto.
  rewrite nth_overflow in H by lia. discriminate.
Qed.

Lemma olen_nonneg : forall o, 0 <= olen o.
Proof. destruct o; cbn; [apply zlen_nonneg|lia]. Qed.
Lemma names_len_nonneg : forall l, 0 <= names_len l.
Proof.
  unfold names_len. induction l; cbn [map]; [cbn; lia|]. rewrite zsum_cons.
  pose proof (olen_nonneg a). lia.
Qed.

Lemma rep_setup : forall i p, rep (dtn_setup i p) [] (fun _ => 0).
Proof.
  intros. constructor; cbn [dtn_setup dn_data dn_nde dn_nnb length].
  - rewrite zlen_zrepeat; unfold DN_NBUF; lia.
  - reflexivity.
  - reflexivity.
  - lia.
  - left; reflexivity.
  - intros s e H. destruct s; discriminate.
  - intros; lia.
  - intros s t e g _ H. destruct s; discriminate.
Qed.

Section Rep.
Variables (n : dnode) (l : list dslot) (pos : nat -> Z).
Hypothesis R : rep n l pos.

Lemma rep_nnb_nonneg : 0 <= dn_nnb n.
Proof. rewrite (r_nnb _ _ _ R). apply names_len_nonneg. Qed.

Lemma rep_slot_in : forall s, (s < length l)%nat -> 16 * Z.of_nat s + 16 <= nbeg n /\ nbeg n <= 7680.
Proof.
  intros s H. pose proof (r_fit _ _ _ R). pose proof (r_nde _ _ _ R).
  pose proof rep_nnb_nonneg. unfold nbeg, DN_NBUF. lia.
Qed.

Lemma rep_fields : forall s e, nth s l None = Some e ->
  de_ino (dn_data n) s = e_ino e /\ de_dt (dn_data n) s = e_dt e /\
  de_name_hash (dn_data n) s = Z.land (e_hash e) HASH_MASK /\
  de_name_len (dn_data n) s = elen e /\ de_name_pos (dn_data n) s = pos s.
Proof.
  intros s e H. pose proof (nth_some_lt _ _ _ H) as Hs.
  destruct (r_ent _ _ _ R s e H) as (Hok & Hp & Hq & Hb & _).
  destruct (rep_slot_in s Hs). destruct Hok as (Hi & Hd & Hl).
  pose proof (r_len _ _ _ R).
  apply fields_of; try lia. exact Hb.
Qed.

Lemma rep_active : forall s, (s < length l)%nat ->
  de_isactive (dn_data n) s = match nth s l None with Some _ => true | None => false end.
Proof.
  intros s Hs. destruct (nth s l None) as [e|] eqn:E; unfold de_isactive.
  - destruct (rep_fields s e E) as (H1 & _ & _ & H4 & _). rewrite H1, H4.
    destruct (r_ent _ _ _ R s e E) as ((Hi & Hd & Hl) & _). lia.
  - pose proof (r_none _ _ _ R s Hs E) as Hz. unfold de_zero in Hz.
    destruct (rep_slot_in s Hs). pose proof (r_len _ _ _ R).
    destruct (fields_of (dn_data n) s ltac:(lia) 0 0 0 0 0 Hz) as (F1 & _); lia.
Qed.

Lemma rep_name : forall s e, nth s l None = Some e -> de_name (dn_data n) s = e_name e.
Proof.
  intros s e H. unfold de_name. destruct (rep_fields s e H) as (_ & _ & _ & H4 & H5).
  rewrite H4, H5. apply (r_ent _ _ _ R s e H).
Qed.

(* a slot holds this name, with this hash *)
Definition slot_is (o : dslot) (name : bytes) (hash : Z) : bool :=
  match o with
  | Some e => (Z.land (e_hash e) HASH_MASK =? Z.land hash HASH_MASK) && bytes_eqb (e_name e) name
  | None => false
  end.

Lemma rep_has_name : forall s name hash, (s < length l)%nat ->
  de_isactive (dn_data n) s && de_has_name (dn_data n) s name hash = slot_is (nth s l None) name hash.
Proof.
  intros s name hash Hs. rewrite rep_active by auto.
  destruct (nth s l None) as [e|] eqn:E; [|reflexivity]. cbn [andb slot_is]. unfold de_has_name.
  destruct (rep_fields s e E) as (_ & _ & H3 & H4 & H5). rewrite H3, H4, H5.
  destruct (Z.land (e_hash e) HASH_MASK =? Z.land hash HASH_MASK); [|reflexivity]. cbn [andb].
  destruct (elen e =? zlen name) eqn:El; cbn [andb].
  - apply Z.eqb_eq in El. rewrite <- El.
    destruct (r_ent _ _ _ R s e E) as (_ & _ & _ & _ & Hn). rewrite Hn. reflexivity.
  - symmetry. apply not_true_iff_false. intros Hc. apply bytes_eqb_eq in Hc.
    unfold elen in El. rewrite Hc in El. lia.
Qed.
End Rep.

(* first index satisfying a test on the slot *)
Fixpoint find_slot (P : dslot -> bool) (l : list dslot) : option nat :=
  match l with
  | [] => None
  | x :: r => if P x then Some O else option_map S (find_slot P r)
  end.

Lemma find_ext_in : forall A (f g : A -> bool) l, (forall x, In x l -> f x = g x) -> find f l = find g l.
Proof.
  induction l as [|a l IH]; intros H; cbn [find]; auto.
  rewrite (H a) by (left; auto). destruct (g a); auto. apply IH. intros. apply H. right. auto.
Qed.

Lemma find_seq_slot : forall P (l : list dslot) k,
  find (fun s => P (nth (s - k) l None)) (seq k (length l)) = option_map (Nat.add k) (find_slot P l).
Proof.
  intros P l. induction l as [|x l IH]; intros k; cbn [length seq find find_slot]; auto.
  replace (k - k)%nat with O by lia. cbn [nth].
  destruct (P x); cbn [option_map]; [f_equal; lia|].
  rewrite (find_ext_in _ _ (fun s => P (nth (s - S k) l None))).
  - rewrite IH. destruct (find_slot P l); cbn [option_map]; auto. f_equal. lia.
  - intros y Hy. apply in_seq in Hy. replace (y - k)%nat with (S (y - S k)) by lia. reflexivity.
Qed.

Lemma find_slots : forall P (l : list dslot) (f : nat -> bool),
  (forall s, (s < length l)%nat -> f s = P (nth s l None)) ->
  find f (seq 0 (length l)) = find_slot P l.
Proof.
  intros P l f H. rewrite (find_ext_in _ _ (fun s => P (nth (s - 0) l None))).
  - rewrite find_seq_slot. destruct (find_slot P l); reflexivity.
  - intros x Hx. apply in_seq in Hx. rewrite H by lia. f_equal. f_equal. lia.
Qed.

Lemma find_slot_some : forall P l s, find_slot P l = Some s ->
  (s < length l)%nat /\ P (nth s l None) = true /\
  forall t, (t < s)%nat -> P (nth t l None) = false.
Proof.
  intros P. induction l as [|x l IH]; intros s H; cbn [find_slot] in H; [discriminate|].
  destruct (P x) eqn:E.
  - inversion H; subst. cbn [length nth]. repeat split; auto; try lia.
  - destruct (find_slot P l) as [t|]; cbn [option_map] in H; [|discriminate].
    inversion H; subst. destruct (IH t eq_refl) as (H1 & H2 & H3).
    cbn [length nth]. repeat split; auto; try lia.
    intros u Hu. destruct u; cbn [nth]; auto. apply H3. lia.
Qed.
Lemma find_slot_none : forall P l, find_slot P l = None -> forall o, In o l -> P o = false.
Proof.
  intros P. induction l as [|x l IH]; intros H o Ho; [contradiction|]. cbn [find_slot] in H.
  destruct (P x) eqn:E; [discriminate|]. destruct (find_slot P l); [discriminate|].
  destruct Ho as [->|Ho]; auto.
Qed.

Section Rep2.
Variables (n : dnode) (l : list dslot) (pos : nat -> Z).
Hypothesis R : rep n l pos.

Lemma dslots_eq : dslots n = seq 0 (length l).
Proof. unfold dslots. rewrite (r_nde _ _ _ R), Nat2Z.id. reflexivity. Qed.

Lemma rep_search : forall name hash,
  dtn_search n name hash = find_slot (fun o => slot_is o name hash) l.
Proof.
  intros. unfold dtn_search. rewrite dslots_eq. apply find_slots.
  intros s Hs. apply (rep_has_name n l pos R s name hash Hs).
Qed.

Lemma slot_new_find : forall k,
  match find_slot (fun o => match o with Some _ => false | None => true end) k with
  | Some s => s | None => length k end = slot_new k.
Proof.
  induction k as [|[x|] k IH]; cbn [find_slot slot_new length]; auto.
  destruct (find_slot _ k); cbn [option_map]; congruence.
Qed.

Lemma rep_insert_slot : dtn_insert_slot n = slot_new l.
Proof.
  unfold dtn_insert_slot. rewrite dslots_eq, (r_nde _ _ _ R), Nat2Z.id.
  rewrite (find_slots (fun o => match o with Some _ => false | None => true end)).
  - apply slot_new_find.
  - intros s Hs. rewrite (rep_active n l pos R s Hs). destruct (nth s l None); reflexivity.
Qed.
End Rep2.

(* ---- facts about the slot lists ---- *)
Lemma slot_new_le : forall l, (slot_new l <= length l)%nat.
Proof. induction l as [|[x|] l IH]; cbn; lia. Qed.
Lemma slot_new_nth : forall l, nth (slot_new l) l None = None.
Proof. induction l as [|[x|] l IH]; cbn; auto. Qed.
Lemma slots_insert_nth : forall l e s,
  nth s (slots_insert l e) None = if (s =? slot_new l)%nat then Some e else nth s l None.
Proof.
  induction l as [|[x|] l IH]; intros e s; cbn [slots_insert slot_new].
  - destruct s as [|[|s]]; reflexivity.
  - destruct s; cbn [nth Nat.eqb]; auto.
  - destruct s; cbn [nth Nat.eqb]; auto.
Qed.
Lemma slots_insert_length : forall l e,
  length (slots_insert l e) = if (slot_new l =? length l)%nat then S (length l) else length l.
Proof.
  induction l as [|[x|] l IH]; intros e; cbn [slots_insert slot_new length Nat.eqb]; auto.
  rewrite IH. destruct (slot_new l =? length l)%nat; reflexivity.
Qed.
Lemma slots_insert_names : forall l e, names_len (slots_insert l e) = names_len l + elen e.
Proof.
  unfold names_len. induction l as [|[x|] l IH]; intros e; cbn [slots_insert map]; rewrite ?zsum_cons.
  - cbn. lia.
  - rewrite IH. lia.
  - cbn [olen]. lia.
Qed.
Lemma slots_insert_last : forall l e, (l = [] \/ nth (length l - 1) l None <> None) ->
  slots_insert l e = [] \/ nth (length (slots_insert l e) - 1) (slots_insert l e) None <> None.
Proof.
  intros l e H. right. rewrite slots_insert_nth, slots_insert_length.
  destruct (slot_new l =? length l)%nat eqn:E.
  - apply Nat.eqb_eq in E. rewrite E. destruct (Nat.eqb_spec (S (length l) - 1) (length l)); [discriminate|lia].
  - destruct (length l - 1 =? slot_new l)%nat eqn:E2; [discriminate|].
    destruct H as [->|H]; auto. discriminate.
Qed.

Lemma slots_trim_nth : forall l s, nth s (slots_trim l) None = nth s l None.
Proof.
  induction l as [|x l IH]; intros s; cbn [slots_trim]; auto.
  destruct x as [e|].
  - destruct s; cbn [nth]; auto.
  - destruct (slots_trim l) eqn:E; destruct s; cbn [nth]; auto.
    + rewrite <- IH. destruct s; reflexivity.
    + rewrite <- IH. reflexivity.
Qed.
Lemma slots_trim_last : forall l,
  slots_trim l = [] \/ nth (length (slots_trim l) - 1) (slots_trim l) None <> None.
Proof.
  induction l as [|x l IH]; cbn [slots_trim]; [left; reflexivity|].
  destruct x as [e|].
  - right. destruct (slots_trim l) as [|y r]; cbn [length nth]; [discriminate|].
    destruct IH as [IH|IH]; [discriminate|]. cbn [length] in IH.
    replace (S (S (length r)) - 1)%nat with (S (length r)) by lia.
    replace (S (length r) - 1)%nat with (length r) in IH by lia. exact IH.
  - destruct (slots_trim l) as [|y r]; [left; reflexivity|]. right.
    destruct IH as [IH|IH]; [discriminate|]. cbn [length] in *.
    replace (S (S (length r)) - 1)%nat with (S (length r)) by lia.
    replace (S (length r) - 1)%nat with (length r) in IH by lia. exact IH.
Qed.
Lemma slots_trim_length : forall l, (length (slots_trim l) <= length l)%nat.
Proof.
  induction l as [|x l IH]; cbn [slots_trim length]; auto.
  destruct x; cbn [length]; [lia|]. destruct (slots_trim l); cbn [length] in *; lia.
Qed.
Lemma slots_trim_names : forall l, names_len (slots_trim l) = names_len l.
Proof.
  unfold names_len. induction l as [|x l IH]; auto. cbn [slots_trim map]. rewrite zsum_cons, <- IH.
  destruct x; [reflexivity|]. destruct (slots_trim l); reflexivity.
Qed.
Lemma upd_none_names : forall l s e, nth s l None = Some e ->
  names_len (upd l s None) = names_len l - elen e.
Proof.
  unfold names_len. induction l as [|x l IH]; intros s e H; [destruct s; discriminate|].
  destruct s; cbn [nth upd map] in *; rewrite !zsum_cons.
  - subst. cbn [olen]. lia.
  - rewrite (IH s e H). lia.
Qed.
Lemma upd_nth : forall (l : list dslot) s t,
  nth t (upd l s None) None = if (t =? s)%nat then None else nth t l None.
Proof.
  intros l s t. destruct (t =? s)%nat eqn:E.
  - apply Nat.eqb_eq in E. subst. destruct (Nat.lt_ge_cases s (length l)).
    + apply nth_upd_same. auto.
    + apply nth_overflow. rewrite upd_length. lia.
  - apply Nat.eqb_neq in E. apply nth_upd_other. auto.
Qed.

(* the C trimming loop computes the same length *)
Lemma trim_count_length : forall d l k, (k <= length l)%nat ->
  (forall s, (s < k)%nat -> de_isactive d s = match nth s l None with Some _ => true | None => false end) ->
  (forall s, (k <= s)%nat -> nth s l None = None) ->
  trim_count d k = length (slots_trim l).
Proof.
  intros d l k. revert l. induction k as [|k IH]; intros l Hk H H0; cbn [trim_count].
  - assert (E : slots_trim l = []).
    { clear - H0. induction l as [|x l IH]; auto. cbn [slots_trim].
      pose proof (H0 O ltac:(lia)) as E0. cbn [nth] in E0. subst x. rewrite IH; auto.
      intros s _. exact (H0 (S s) ltac:(lia)). }
    rewrite E. reflexivity.
  - rewrite (H k) by lia. destruct (nth k l None) as [e|] eqn:E.
    + apply Nat.le_antisymm.
      * pose proof (slots_trim_nth l k) as Ht. rewrite E in Ht. apply nth_some_lt in Ht. lia.
      * destruct (slots_trim_last l) as [T|T].
        { rewrite T. cbn. lia. }
        destruct (Nat.le_gt_cases (length (slots_trim l)) (S k)); auto. exfalso. apply T.
        rewrite slots_trim_nth. apply H0. lia.
    + apply IH; [lia| |].
      * intros. apply H. lia.
      * intros s Hs. destruct (Nat.eq_dec s k); [subst; auto|]. apply H0. lia.
Qed.

(* ---- insertion ---- *)
Lemma rep_may_insert : forall n l pos nlen, rep n l pos ->
  dtn_may_insert n nlen = (16 + nlen + names_len l + 16 * Z.of_nat (length l) <=? 7680).
Proof.
  intros n l pos nlen R. unfold dtn_may_insert, dtn_data_used, DE_SIZE, DN_NBUF.
  rewrite (r_nde _ _ _ R), (r_nnb _ _ _ R). lia.
Qed.

Lemma rep_insert : forall n l pos e, rep n l pos -> dent_ok e ->
  dtn_may_insert n (elen e) = true ->
  rep (dtn_insert n (e_name e) (e_hash e) (e_ino e) (e_dt e)) (slots_insert l e)
      (fun s => if (s =? slot_new l)%nat then 7680 - (dn_nnb n + elen e) else pos s).
Proof.
  intros n l pos e R Hok Hm. pose proof R as R0. destruct R0 as [H1 H2 H3 H4 H5 H6 H7 H8].
  pose proof (rep_nnb_nonneg _ _ _ R) as Hnn. destruct Hok as (Oi & Od & Ol).
  rewrite (rep_may_insert _ _ _ _ R) in Hm. rewrite <- H3, <- H2 in Hm.
  pose proof (slot_new_le l) as Hsl.
  unfold dtn_insert. rewrite (rep_insert_slot _ _ _ R). fold (elen e).
  set (S0 := slot_new l) in *. set (P := DN_NBUF - (dn_nnb n + elen e)).
  assert (HP : P = 7680 - (dn_nnb n + elen e)) by reflexivity.
  set (d1 := de_write (dn_data n) S0 (de_bytes (e_ino e) (e_dt e) (e_hash e) (elen e) P)).
  assert (L16 : 16 * Z.of_nat S0 + 16 <= P) by lia.
  assert (Ld1 : zlen d1 = 7680).
  { unfold d1, de_write, DE_SIZE. rewrite zlen_zput; rewrite ?zlen_de_bytes; lia. }
  assert (Hs1 : zsub (16 * Z.of_nat S0) 16 d1 = eb e P).
  { unfold d1. apply zsub_write_self; [lia|apply zlen_de_bytes]. }
  destruct (fields_of d1 S0 ltac:(lia) _ _ _ _ _ Hs1) as (_ & _ & _ & _ & Hpos); try lia.
  rewrite Hpos. set (d2 := zput d1 P (e_name e)).
  assert (Ln : zlen (e_name e) = elen e) by reflexivity.
  assert (Ld2 : zlen d2 = 7680) by (unfold d2; rewrite zlen_zput; lia).
  assert (Hd : forall a m, 0 <= a -> 0 <= m -> a + m <= 7680 ->
    (a + m <= 16 * Z.of_nat S0 \/ 16 * Z.of_nat S0 + 16 <= a) -> (a + m <= P \/ P + elen e <= a) ->
    zsub a m d2 = zsub a m (dn_data n)).
  { intros a m Ha Hm0 Ham D1 D2. unfold d2. rewrite zsub_zput_other by lia.
    unfold d1, de_write, DE_SIZE. rewrite zsub_zput_other; rewrite ?zlen_de_bytes; try lia. reflexivity. }
  assert (Nde : dn_nde (if Z.of_nat S0 =? dn_nde n then with_nde (with_data n d2) (dn_nde n + 1) else with_data n d2)
              = Z.of_nat (length (slots_insert l e))).
  { rewrite slots_insert_length. fold S0. destruct (Nat.eqb_spec S0 (length l)).
    - replace (Z.of_nat S0 =? dn_nde n) with true by lia. cbn [dn_nde with_nde]. unfold u16. lia.
    - replace (Z.of_nat S0 =? dn_nde n) with false by lia. cbn [dn_nde with_data]. lia. }
  assert (Dat : dn_data (with_nnb (if Z.of_nat S0 =? dn_nde n then with_nde (with_data n d2) (dn_nde n + 1) else with_data n d2) (dn_nnb n + elen e)) = d2).
  { cbn [dn_data with_nnb]. destruct (Z.of_nat S0 =? dn_nde n); reflexivity. }
  constructor.
  - rewrite Dat. exact Ld2.
  - exact Nde.
  - cbn [dn_nnb with_nnb]. unfold u16. rewrite Z.mod_small by lia. rewrite slots_insert_names. lia.
  - change (16 * dn_nde (if Z.of_nat S0 =? dn_nde n then with_nde (with_data n d2) (dn_nde n + 1) else with_data n d2) + u16 (dn_nnb n + elen e) <= 7680).
    rewrite Nde. unfold u16. rewrite Z.mod_small by lia. rewrite slots_insert_length.
    destruct (slot_new l =? length l)%nat; lia.
  - apply slots_insert_last. exact H5.
  - intros s g Hg. rewrite slots_insert_nth in Hg. fold S0 in Hg. rewrite Dat.
    unfold nbeg. cbn [dn_nnb with_nnb]. unfold u16. rewrite Z.mod_small by lia. unfold DN_NBUF.
    destruct (Nat.eqb_spec s S0) as [->|Ns].
    + inversion Hg; subst g. split; [repeat split; lia|]. split; [lia|]. split; [lia|]. split.
      * rewrite <- HP. unfold d2. rewrite zsub_zput_other by lia. exact Hs1.
      * rewrite <- HP. unfold d2. rewrite <- Ln at 1. apply zsub_zput_same; lia.
    + pose proof (nth_some_lt _ _ _ Hg) as Hs. destruct (rep_slot_in _ _ _ R s Hs) as (B1 & B2).
      unfold nbeg, DN_NBUF in B1.
      destruct (H6 s g Hg) as (G1 & G2 & G3 & G4 & G5). unfold nbeg, DN_NBUF in G2. pose proof G1 as G1'. destruct G1' as (_ & _ & Gl).
      split; [auto|]. split; [lia|]. split; [lia|]. split.
      * rewrite Hd by lia. exact G4.
      * rewrite Hd by lia. exact G5.
  - intros s Hs Hn. rewrite slots_insert_nth in Hn. fold S0 in Hn. rewrite Dat.
    destruct (Nat.eqb_spec s S0) as [->|Ns]; [discriminate|].
    rewrite slots_insert_length in Hs. fold S0 in Hs.
    assert (Hs' : (s < length l)%nat) by (destruct (Nat.eqb_spec S0 (length l)); lia).
    destruct (rep_slot_in _ _ _ R s Hs') as (B1 & B2). unfold nbeg, DN_NBUF in B1.
    rewrite Hd by lia. auto.
  - intros s t g h Nst Hg Hh. rewrite slots_insert_nth in Hg, Hh. fold S0 in Hg, Hh.
    destruct (Nat.eqb_spec s S0) as [->|Ns]; destruct (Nat.eqb_spec t S0) as [->|Nt]; try congruence.
    + inversion Hg; subst g. destruct (H6 t h Hh) as (_ & G2 & _). unfold nbeg, DN_NBUF in G2. lia.
    + inversion Hh; subst h. destruct (H6 s g Hg) as (_ & G2 & _). unfold nbeg, DN_NBUF in G2. lia.
    + eapply H8; eauto.
Qed.

(* ---- removal ---- *)
Lemma zlen_set_pos : forall d s q, 16 * Z.of_nat s + 16 <= zlen d -> zlen (de_set_pos d s q) = zlen d.
Proof.
  intros. unfold de_set_pos, DE_SIZE. apply zlen_zput; [lia|]. rewrite zlen_le_enc. lia.
Qed.

Lemma fixup_spec : forall ref mv ss d,
  zlen d = 7680 -> NoDup ss -> (forall s, In s ss -> 16 * Z.of_nat s + 16 <= 7680) ->
  zlen (dtn_fixup ss d ref mv) = 7680 /\
  (forall a m, 0 <= a -> 0 <= m -> a + m <= 7680 ->
     (forall s, In s ss -> a + m <= 16 * Z.of_nat s \/ 16 * Z.of_nat s + 16 <= a) ->
     zsub a m (dtn_fixup ss d ref mv) = zsub a m d) /\
  (forall s, In s ss -> zsub (16 * Z.of_nat s) 16 (dtn_fixup ss d ref mv) =
     zsub (16 * Z.of_nat s) 16
       (if de_isactive d s && (de_name_pos d s <? ref) then de_set_pos d s (de_name_pos d s + mv) else d)).
Proof.
  intros ref mv. induction ss as [|x ss IH]; intros d Hd Nd Hss.
  { cbn [dtn_fixup fold_left]. split; [auto|]. split; [auto|]. intros s []. }
  inversion Nd as [|? ? Nx Nd']; subst.
  set (d' := if de_isactive d x && (de_name_pos d x <? ref) then de_set_pos d x (de_name_pos d x + mv) else d).
  assert (E : dtn_fixup (x :: ss) d ref mv = dtn_fixup ss d' ref mv) by reflexivity.
  pose proof (Hss x (or_introl eq_refl)) as Hx.
  assert (L2 : forall q, zlen (le_enc 2 (u16 q)) = 2) by (intros; rewrite zlen_le_enc; reflexivity).
  assert (Ld' : zlen d' = 7680).
  { unfold d'. destruct (_ && _); auto. unfold de_set_pos, DE_SIZE. rewrite zlen_zput; rewrite ?L2; lia. }
  assert (O : forall a m, 0 <= a -> 0 <= m -> a + m <= 7680 ->
    a + m <= 16 * Z.of_nat x \/ 16 * Z.of_nat x + 16 <= a -> zsub a m d' = zsub a m d).
  { intros a m Ha Hm Ham Hd0. unfold d'. destruct (_ && _); auto. unfold de_set_pos, DE_SIZE.
    apply zsub_zput_other; rewrite ?L2; lia. }
  assert (D0 : d' = if de_isactive d x && (de_name_pos d x <? ref) then de_set_pos d x (de_name_pos d x + mv) else d) by reflexivity.
  clearbody d'. destruct (IH d' Ld' Nd') as (I1 & I2 & I3).
  { intros s Hs. apply Hss. right. auto. }
  rewrite E. split; [auto|]. split.
  - intros a m Ha Hm Ham Hdis. rewrite I2; auto.
    + apply O; auto. apply Hdis. left. reflexivity.
    + intros s Hs. apply Hdis. right. auto.
  - intros s [->|Hs].
    + rewrite I2; auto; try lia; [rewrite D0; reflexivity|]. intros t Ht. assert (s <> t) by (intro; subst; contradiction). lia.
    + rewrite I3 by auto. assert (s <> x) by (intro; subst; contradiction).
      pose proof (Hss s (or_intror Hs)) as Hs16.
      assert (F : forall o m, 0 <= o -> 0 <= m -> o + m <= 16 ->
        zsub (16 * Z.of_nat s + o) m d' = zsub (16 * Z.of_nat s + o) m d) by (intros; apply O; lia).
      assert (E1 : de_ino d' s = de_ino d s).
      { unfold de_ino, DE_SIZE. pose proof (F 0 8). rewrite Z.add_0_r in *. rewrite H0; auto; lia. }
      assert (E2 : de_name_len d' s = de_name_len d s) by (unfold de_name_len, DE_SIZE; rewrite F by lia; auto).
      assert (E3 : de_name_pos d' s = de_name_pos d s) by (unfold de_name_pos, DE_SIZE; rewrite F by lia; auto).
      unfold de_isactive. rewrite E1, E2, E3.
      match goal with |- context [if ?b then _ else _] => destruct b end.
      * apply (znth_ext _ 0).
        { rewrite !zlen_zsub; rewrite ?zlen_set_pos; lia. }
        { rewrite zlen_zsub by (rewrite ?zlen_set_pos; lia).
          intros i Hi. rewrite !znth_zsub by lia. unfold de_set_pos, DE_SIZE.
          rewrite !znth_zput by (rewrite ?L2; lia).
          match goal with |- context [if ?b then _ else _] => destruct b; auto end.
          pose proof (F i 1 ltac:(lia) ltac:(lia) ltac:(lia)) as Fi.
          assert (G : znth (zsub (16 * Z.of_nat s + i) 1 d') 0 0 = znth (zsub (16 * Z.of_nat s + i) 1 d) 0 0) by congruence.
          rewrite !znth_zsub in G by lia. rewrite Z.add_0_r in G. exact G. }
      * pose proof (F 0 16) as F0. rewrite Z.add_0_r in F0. apply F0; lia.
Qed.

Lemma punch_spec : forall n pos nlen d b,
  zlen (dn_data n) = 7680 -> dtn_punch n pos nlen = (d, b) ->
  0 <= nbeg n <= pos -> 0 <= nlen -> pos + nlen <= 7680 ->
  zlen d = 7680 /\ b = (nbeg n <? pos) /\
  (forall a m, 0 <= a -> 0 <= m -> a + m <= nbeg n -> zsub a m d = zsub a m (dn_data n)) /\
  (forall a m, 0 <= m -> pos + nlen <= a -> a + m <= 7680 -> zsub a m d = zsub a m (dn_data n)) /\
  (forall a m, 0 <= m -> nbeg n <= a -> a + m <= pos -> zsub (a + nlen) m d = zsub a m (dn_data n)).
Proof.
  intros n pos nlen d b Hl E H H0 H1. unfold dtn_punch in E. fold (nbeg n) in E.
  destruct (nbeg n <? pos) eqn:C; inversion E; subst; clear E.
  - assert (Lm : zlen (zsub (nbeg n) (pos - nbeg n) (dn_data n)) = pos - nbeg n) by (apply zlen_zsub; lia).
    split; [rewrite zlen_zput; lia|]. split; [auto|]. split.
    { intros a m A1 A2 A3. apply zsub_zput_other; lia. }
    split.
    { intros a m A1 A2 A3. apply zsub_zput_other; lia. }
    intros a m A1 A2 A3. rewrite zsub_zput_in by lia. rewrite zsub_zsub by lia.
    f_equal. lia.
  - split; [auto|]. split; [auto|]. split; [auto|]. split; [auto|].
    intros a m A1 A2 A3. assert (m = 0) by lia. subst m.
    unfold zsub. rewrite !(ztake_0 _ 0) by lia. reflexivity.
Qed.

Lemma rep_remove : forall n l pos s e, rep n l pos -> nth s l None = Some e ->
  rep (dtn_remove n s) (slots_remove l s)
      (fun t => if pos t <? pos s then pos t + elen e else pos t).
Proof.
  intros n l pos s e R He. pose proof R as R0. destruct R0 as [H1 H2 H3 H4 H5 H6 H7 H8].
  pose proof (rep_nnb_nonneg _ _ _ R) as Hnn.
  pose proof (nth_some_lt _ _ _ He) as Hs.
  destruct (H6 s e He) as ((Oi & Od & Ol) & P1 & P2 & _ & _).
  destruct (rep_fields _ _ _ R s e He) as (_ & _ & _ & F4 & F5).
  destruct (rep_slot_in _ _ _ R s Hs) as (B1 & B2).
  unfold dtn_remove. rewrite F4, F5.
  destruct (dtn_punch n (pos s) (elen e)) as [d1 pu] eqn:EP.
  assert (B0 : 0 <= nbeg n <= pos s) by lia. assert (B3 : 0 <= elen e) by lia.
  destruct (punch_spec _ _ _ _ _ H1 EP B0 B3 P2) as (L1 & Pu & Q1 & Q2 & Q3).
  set (d2 := de_write d1 s de_zero).
  assert (Lz : zlen de_zero = 16) by reflexivity.
  assert (L2 : zlen d2 = 7680) by (unfold d2, de_write, DE_SIZE; rewrite zlen_zput; rewrite ?Lz; lia).
  assert (S2 : zsub (16 * Z.of_nat s) 16 d2 = de_zero) by (unfold d2; apply zsub_write_self; [lia|auto]).
  assert (O2 : forall a m, 0 <= a -> 0 <= m -> a + m <= 7680 ->
    a + m <= 16 * Z.of_nat s \/ 16 * Z.of_nat s + 16 <= a -> zsub a m d2 = zsub a m d1).
  { intros. unfold d2, de_write, DE_SIZE. apply zsub_zput_other; rewrite ?Lz; lia. }
  (* slots in d2 *)
  assert (E2 : forall t, (t < length l)%nat -> t <> s ->
    zsub (16 * Z.of_nat t) 16 d2 = zsub (16 * Z.of_nat t) 16 (dn_data n)).
  { intros t Ht Nt. destruct (rep_slot_in _ _ _ R t Ht) as (T1 & T2). rewrite O2 by lia. apply Q1; lia. }
  assert (A2 : forall t, (t < length l)%nat ->
    de_isactive d2 t = match nth t (upd l s None) None with Some _ => true | None => false end).
  { intros t Ht. rewrite upd_nth. destruct (rep_slot_in _ _ _ R t Ht) as (T1 & T2).
    destruct (Nat.eqb_spec t s) as [->|Nt].
    - unfold de_isactive. unfold de_zero in S2.
      destruct (fields_of d2 s ltac:(lia) _ _ _ _ _ S2) as (Z1 & _); lia.
    - destruct (nth t l None) as [g|] eqn:Eg.
      + destruct (H6 t g Eg) as ((Gi & Gd & Gl) & G2 & G3 & G4 & G5).
        rewrite <- (E2 t Ht Nt) in G4.
        destruct (fields_of d2 t ltac:(lia) _ _ _ _ _ G4) as (Z1 & _ & _ & Z4 & _); try lia.
        unfold de_isactive. rewrite Z1, Z4. lia.
      + pose proof (H7 t Ht Eg) as Gz. rewrite <- (E2 t Ht Nt) in Gz. unfold de_zero in Gz.
        destruct (fields_of d2 t ltac:(lia) _ _ _ _ _ Gz) as (Z1 & _); try lia.
        unfold de_isactive. rewrite Z1. reflexivity. }
  rewrite (dslots_eq _ _ _ R).
  set (d3 := if pu then dtn_fixup (seq 0 (length l)) d2 (pos s) (elen e) else d2).
  assert (Sin : forall t, In t (seq 0 (length l)) -> 16 * Z.of_nat t + 16 <= 7680).
  { intros t Ht. apply in_seq in Ht. destruct (rep_slot_in _ _ _ R t ltac:(lia)). lia. }
  destruct (fixup_spec (pos s) (elen e) (seq 0 (length l)) d2 L2 (seq_NoDup _ _) Sin) as (X1 & X2 & X3).
  (* names area untouched by fixups; slots become shifted *)
  assert (D3 : zlen d3 = 7680 /\
    (forall a m, 16 * dn_nde n <= a -> 0 <= m -> a + m <= 7680 -> zsub a m d3 = zsub a m d1) /\
    (forall t g, nth t l None = Some g -> t <> s ->
      zsub (16 * Z.of_nat t) 16 d3 = eb g (if pos t <? pos s then pos t + elen e else pos t)) /\
    (forall t, (t < length l)%nat -> nth t (upd l s None) None = None -> zsub (16 * Z.of_nat t) 16 d3 = de_zero)).
  { unfold d3. destruct pu.
    - split; [exact X1|]. split; [|split].
      + intros a m A1 A3 A4. rewrite X2; try lia.
        * apply O2; lia.
        * intros t Ht. apply in_seq in Ht. right. lia.
      + intros t g Hg Nt. pose proof (nth_some_lt _ _ _ Hg) as Ht.
        rewrite X3 by (apply in_seq; lia). rewrite A2 by auto. rewrite upd_nth.
        replace (t =? s)%nat with false by (symmetry; apply Nat.eqb_neq; auto). rewrite Hg. cbn [andb].
        destruct (H6 t g Hg) as ((Gi & Gd & Gl) & G2 & G3 & G4 & G5).
        destruct (rep_slot_in _ _ _ R t Ht) as (T1 & T2).
        rewrite <- (E2 t Ht Nt) in G4.
        destruct (fields_of d2 t ltac:(lia) _ _ _ _ _ G4) as (_ & _ & _ & _ & Z5); try lia.
        rewrite Z5. destruct (pos t <? pos s); [|exact G4].
        eapply zsub_set_pos_self; [lia|exact G4].
      + intros t Ht Hn. rewrite X3 by (apply in_seq; lia). rewrite A2 by auto. rewrite Hn. cbn [andb].
        rewrite upd_nth in Hn. destruct (Nat.eqb_spec t s) as [->|Nt]; [exact S2|].
        rewrite E2 by auto. auto.
    - split; [exact L2|]. split; [|split].
      + intros a m A1 A3 A4. apply O2; lia.
      + intros t g Hg Nt. pose proof (nth_some_lt _ _ _ Hg) as Ht.
        destruct (H6 t g Hg) as (_ & G2 & G3 & G4 & G5).
        replace (pos t <? pos s) with false by lia. rewrite E2 by auto. exact G4.
      + intros t Ht Hn. rewrite upd_nth in Hn. destruct (Nat.eqb_spec t s) as [->|Nt]; [exact S2|].
        rewrite E2 by auto. auto. }
  clearbody d3. destruct D3 as (L3 & N3 & E3 & Z3).
  assert (A3 : forall t, (t < length l)%nat ->
    de_isactive d3 t = match nth t (upd l s None) None with Some _ => true | None => false end).
  { intros t Ht. destruct (rep_slot_in _ _ _ R t Ht) as (T1 & T2).
    destruct (nth t (upd l s None) None) as [g|] eqn:Eg.
    - pose proof Eg as Eg'. rewrite upd_nth in Eg'. destruct (Nat.eqb_spec t s) as [->|Nt]; [discriminate|].
      pose proof (E3 t g Eg' Nt) as G4. destruct (H6 t g Eg') as ((Gi & Gd & Gl) & G2 & G3 & _).
      destruct (fields_of d3 t ltac:(lia) _ _ _ _ _ G4) as (Z1 & _ & _ & Z4 & _); try lia.
      { destruct (pos t <? pos s); lia. }
      unfold de_isactive. rewrite Z1, Z4. lia.
    - pose proof (Z3 t Ht Eg) as Gz. unfold de_zero in Gz.
      destruct (fields_of d3 t ltac:(lia) _ _ _ _ _ Gz) as (Z1 & _); try lia.
      unfold de_isactive. rewrite Z1. reflexivity. }
  assert (TC : trim_count d3 (Z.to_nat (dn_nde n)) = length (slots_remove l s)).
  { rewrite H2, Nat2Z.id. unfold slots_remove. apply trim_count_length.
    - rewrite upd_length. lia.
    - auto.
    - intros t Ht. apply nth_overflow. rewrite upd_length. lia. }
  rewrite TC.
  assert (TL : (length (slots_remove l s) <= length l)%nat).
  { unfold slots_remove. pose proof (slots_trim_length (upd l s None)). rewrite upd_length in H. lia. }
  assert (NL : names_len (slots_remove l s) = dn_nnb n - elen e).
  { unfold slots_remove. rewrite slots_trim_names, (upd_none_names _ _ _ He), H3. reflexivity. }
  pose proof (names_len_nonneg (slots_remove l s)) as NN.
  assert (U1 : u16 (dn_nnb n - elen e) = dn_nnb n - elen e) by (unfold u16; apply Z.mod_small; lia).
  assert (U2 : u16 (Z.of_nat (length (slots_remove l s))) = Z.of_nat (length (slots_remove l s)))
    by (unfold u16; apply Z.mod_small; lia).
  assert (NT : forall t, nth t (slots_remove l s) None = if (t =? s)%nat then None else nth t l None).
  { intros t. unfold slots_remove. rewrite slots_trim_nth. apply upd_nth. }
  constructor; unfold nbeg; cbn [with_nde with_data with_nnb dn_data dn_nde dn_nnb]; rewrite ?U1, ?U2; unfold DN_NBUF;
    unfold nbeg, DN_NBUF in *.
  - exact L3.
  - reflexivity.
  - auto.
  - lia.
  - apply slots_trim_last.
  - intros t g Hg. rewrite NT in Hg. destruct (Nat.eqb_spec t s) as [->|Nt]; [discriminate|].
    destruct (H6 t g Hg) as (G1 & G2 & G3 & G4 & G5). pose proof G1 as (_ & _ & Gl).
    pose proof (H8 t s g e Nt Hg He) as Dis. split; [exact G1|].
    destruct (pos t <? pos s) eqn:C.
    + split; [lia|]. split; [lia|]. split.
      * rewrite (E3 t g Hg Nt), C. reflexivity.
      * rewrite N3 by lia. rewrite Q3 by lia. exact G5.
    + split; [lia|]. split; [lia|]. split.
      * rewrite (E3 t g Hg Nt), C. reflexivity.
      * rewrite N3 by lia. rewrite Q2 by lia. exact G5.
  - intros t Ht Hn. apply Z3; [lia|]. rewrite upd_nth. rewrite NT in Hn. exact Hn.
  - intros t u g h Ntu Hg Hh. rewrite NT in Hg, Hh.
    destruct (Nat.eqb_spec t s) as [->|Nt]; [discriminate|].
    destruct (Nat.eqb_spec u s) as [->|Nu]; [discriminate|].
    pose proof (H8 t u g h Ntu Hg Hh). pose proof (H8 t s g e Nt Hg He). pose proof (H8 u s h e Nu Hh He).
    destruct (H6 t g Hg) as ((_ & _ & Gl) & _). destruct (H6 u h Hh) as ((_ & _ & Hl) & _).
    destruct (pos t <? pos s) eqn:C1; destruct (pos u <? pos s) eqn:C2; lia.
Qed.

(* fields insert/remove do not touch *)
Lemma insert_frame : forall n nm h i dt,
  dn_parent (dtn_insert n nm h i dt) = dn_parent n /\ dn_index (dtn_insert n nm h i dt) = dn_index n /\
  dn_nact (dtn_insert n nm h i dt) = dn_nact n /\ dn_child (dtn_insert n nm h i dt) = dn_child n.
Proof. intros. unfold dtn_insert. cbn zeta. destruct (_ =? _); repeat split. Qed.
Lemma remove_frame : forall n s,
  dn_parent (dtn_remove n s) = dn_parent n /\ dn_index (dtn_remove n s) = dn_index n /\
  dn_nact (dtn_remove n s) = dn_nact n /\ dn_child (dtn_remove n s) = dn_child n.
Proof. intros. unfold dtn_remove. destruct (dtn_punch _ _ _). repeat split. Qed.

(* the representation does not depend on links *)
Lemma rep_relink : forall n m l pos, rep n l pos ->
  dn_nde m = dn_nde n -> dn_nnb m = dn_nnb n -> dn_data m = dn_data n -> rep m l pos.
Proof.
  intros n m l pos R E1 E2 E3. destruct R as [H1 H2 H3 H4 H5 H6 H7 H8].
  constructor; unfold nbeg in *; rewrite ?E1, ?E2, ?E3; auto.
Qed.
