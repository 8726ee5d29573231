(* C10: packed directory names are never corrupted. *)
From Verif Require Import Base DirNodeModel DirNodeProofs.

(* ---------- specification ---------- *)
(* A node is a table from slot numbers to entries.  An insertion puts the entry in some free
   slot, a removal frees a slot; nothing else changes.  There is room for a name of length k
   exactly when 16 bytes per slot up to the highest used one, 16 more, the names held and k
   fit in 7680 bytes. *)
Inductive nop := NIns (e : dent) | NDel (s : nat).
Definition table := nat -> option dent.
Definition tset (m : table) (s : nat) (o : option dent) : table := fun t => if Nat.eqb t s then o else m t.

(* the first k slots contain all used ones *)
Definition bounded (m : table) (k : nat) : Prop := forall s, (k <= s)%nat -> m s = None.
Definition least_bound (m : table) (k : nat) : Prop :=
  bounded m k /\ forall j, bounded m j -> (k <= j)%nat.
Definition names_total (m : table) (k : nat) : Z :=
  zsum (map (fun s => match m s with Some e => zlen (e_name e) | None => 0 end) (seq 0 k)).
Definition has_room (m : table) (e : dent) : Prop :=
  exists k, least_bound m k /\ 16 * Z.of_nat k + 16 + names_total m k + zlen (e_name e) <= 7680.

Inductive nstep : table -> nop -> table -> Prop :=
| n_ins : forall m e s, m s = None -> has_room m e -> nstep m (NIns e) (tset m s (Some e))
| n_full : forall m e, ~ has_room m e -> nstep m (NIns e) m
| n_del : forall m s, nstep m (NDel s) (tset m s None).
Inductive nruns : table -> list nop -> table -> Prop :=
| nr_nil : forall m, nruns m [] m
| nr_cons : forall m o m1 os m2, nstep m o m1 -> nruns m1 os m2 -> nruns m (o :: os) m2.

(* ---------- the model ---------- *)
Definition node_has (n : dnode) (s : nat) : bool := Nat.ltb s (Z.to_nat (dn_nde n)) && de_isactive (dn_data n) s.
Definition nstep_impl (n : dnode) (o : nop) : dnode :=
  match o with
  | NIns e => if dtn_may_insert n (zlen (e_name e)) then dtn_insert n (e_name e) (e_hash e) (e_ino e) (e_dt e) else n
  | NDel s => if node_has n s then dtn_remove n s else n
  end.
Definition nrun_impl (n : dnode) (os : list nop) : dnode := fold_left nstep_impl os n.

(* what a reader of the bytes sees in a slot *)
Definition shows (n : dnode) (s : nat) (o : option dent) : Prop :=
  match o with
  | Some e => node_has n s = true /\ de_ino (dn_data n) s = e_ino e /\ de_dt (dn_data n) s = e_dt e /\
              de_name (dn_data n) s = e_name e
  | None => node_has n s = false
  end.
Definition legal_op (o : nop) : Prop :=
  match o with
  | NIns e => 0 < e_ino e < 2 ^ 64 /\ 0 <= e_dt e < 256 /\ 1 <= zlen (e_name e) <= 255
  | NDel _ => True
  end.

(* ---------- proof ---------- *)
Definition tab (l : list dslot) : table := fun s => nth s l None.

Lemma tab_least : forall l, (l = [] \/ nth (length l - 1) l None <> None) -> least_bound (tab l) (length l).
Proof.
  intros l H. split.
  - intros s Hs. apply nth_overflow. auto.
  - intros j Hj. destruct (Nat.le_gt_cases (length l) j); auto. exfalso.
    destruct H as [->|H]; [cbn in *; lia|]. apply H. apply Hj. lia.
Qed.
Lemma least_unique : forall m a b, least_bound m a -> least_bound m b -> a = b.
Proof. intros m a b (A1 & A2) (B1 & B2). specialize (A2 _ B1). specialize (B2 _ A1). lia. Qed.
Lemma least_ext : forall m m' k, (forall s, m s = m' s) -> least_bound m k -> least_bound m' k.
Proof.
  intros m m' k E (A & B). split.
  - intros s Hs. rewrite <- E. auto.
  - intros j Hj. apply B. intros s Hs. rewrite E. auto.
Qed.
Lemma names_total_tab : forall l, names_total (tab l) (length l) = names_len l.
Proof.
  intros l. unfold names_total, names_len. f_equal.
  assert (G : forall l k, map (fun s => match nth (s - k) l None with Some e => zlen (e_name e) | None => 0 end) (seq k (length l)) = map olen l).
  { induction l0 as [|x l0 IH]; intros k; cbn [length seq map]; auto.
    replace (k - k)%nat with O by lia. cbn [nth]. f_equal.
    rewrite <- (IH (S k)). apply map_ext_in. intros s Hs. apply in_seq in Hs.
    replace (s - k)%nat with (S (s - S k)) by lia. reflexivity. }
  rewrite <- (G l O). apply map_ext. intros s. unfold tab. rewrite Nat.sub_0_r. reflexivity.
Qed.
Lemma names_total_ext : forall m m' k, (forall s, m s = m' s) -> names_total m k = names_total m' k.
Proof. intros. unfold names_total. f_equal. apply map_ext. intros s. rewrite H. reflexivity. Qed.

Lemma room_iff : forall n l pos m e, rep n l pos -> (forall s, m s = tab l s) ->
  dtn_may_insert n (zlen (e_name e)) = true <-> has_room m e.
Proof.
  intros n l pos m e R E. rewrite (rep_may_insert _ _ _ _ R).
  pose proof (tab_least l (r_last _ _ _ R)) as T.
  assert (T' : least_bound m (length l)) by (eapply least_ext; [intros; symmetry; apply E|exact T]).
  split.
  - intros H. exists (length l). split; auto. rewrite (names_total_ext _ _ _ E), names_total_tab. lia.
  - intros (k & K1 & K2). rewrite (least_unique _ _ _ K1 T') in K2.
    rewrite (names_total_ext _ _ _ E), names_total_tab in K2. lia.
Qed.

Lemma node_has_rep : forall n l pos s, rep n l pos ->
  node_has n s = match nth s l None with Some _ => true | None => false end.
Proof.
  intros n l pos s R. unfold node_has. rewrite (r_nde _ _ _ R), Nat2Z.id.
  destruct (Nat.ltb_spec s (length l)).
  - cbn [andb]. apply (rep_active _ _ _ R); auto.
  - rewrite nth_overflow by lia. reflexivity.
Qed.

Lemma shows_rep : forall n l pos s, rep n l pos -> shows n s (nth s l None).
Proof.
  intros n l pos s R. pose proof (node_has_rep n l pos s R) as Hn. unfold shows.
  destruct (nth s l None) as [e|] eqn:E; [|exact Hn].
  destruct (rep_fields _ _ _ R s e E) as (F1 & F2 & _). split; [exact Hn|]. split; [exact F1|].
  split; [exact F2|]. apply (rep_name _ _ _ R s e E).
Qed.

Lemma nstep_ok : forall o n l pos m, rep n l pos -> (forall s, m s = tab l s) -> legal_op o ->
  exists l' pos' m', rep (nstep_impl n o) l' pos' /\ nstep m o m' /\ (forall s, m' s = tab l' s).
Proof.
  intros o n l pos m R E L. destruct o as [e|s]; cbn [nstep_impl legal_op] in *.
  - destruct (dtn_may_insert n (zlen (e_name e))) eqn:M.
    + exists (slots_insert l e). eexists. exists (tset m (slot_new l) (Some e)).
      split; [|split].
      * apply (rep_insert n l pos e R); auto.
      * apply n_ins; [rewrite E; apply slot_new_nth|]. apply (room_iff n l pos m e R E). exact M.
      * intros s. unfold tset, tab. rewrite slots_insert_nth. destruct (Nat.eqb_spec s (slot_new l)); auto. apply E.
    + exists l, pos, m. split; [auto|]. split; [|auto]. apply n_full. intros H.
      apply (room_iff n l pos m e R E) in H. congruence.
  - rewrite (node_has_rep n l pos s R). destruct (nth s l None) as [e|] eqn:Es.
    + exists (slots_remove l s). eexists. exists (tset m s None). split; [|split].
      * apply (rep_remove n l pos s e R Es).
      * apply n_del.
      * intros t. unfold tset, tab, slots_remove. rewrite slots_trim_nth, upd_nth.
        destruct (Nat.eqb_spec t s); auto. apply E.
    + exists l, pos, (tset m s None). split; [auto|]. split; [apply n_del|].
      intros t. unfold tset. destruct (Nat.eqb_spec t s) as [->|]; [unfold tab; auto|apply E].
Qed.

Lemma nrun_ok : forall os n l pos m, rep n l pos -> (forall s, m s = tab l s) -> Forall legal_op os ->
  exists l' pos' m', rep (nrun_impl n os) l' pos' /\ nruns m os m' /\ (forall s, m' s = tab l' s).
Proof.
  induction os as [|o os IH]; intros n l pos m R E L.
  - exists l, pos, m. split; [auto|]. split; [constructor|auto].
  - inversion L as [|? ? L1 L2]; subst.
    destruct (nstep_ok o n l pos m R E L1) as (l1 & p1 & m1 & R1 & S1 & E1).
    destruct (IH _ _ _ _ R1 E1 L2) as (l2 & p2 & m2 & R2 & S2 & E2).
    exists l2, p2, m2. split; [exact R2|]. split; [econstructor; eauto|auto].
Qed.

(* C10.  After any history of legal insertions and removals on a fresh node: the node's bytes
   show, slot by slot, exactly the table of the specification (so every insertion took a free
   slot and left all others alone, every refusal was for lack of room, every removal freed its
   slot only and gave its bytes back), and the buffer never changed size, i.e. no write went
   outside it. *)
Theorem C10_node_table : forall idx parent os, Forall legal_op os ->
  exists m, nruns (fun _ => None) os m /\
    (forall s, shows (nrun_impl (dtn_setup idx parent) os) s (m s)) /\
    zlen (dn_data (nrun_impl (dtn_setup idx parent) os)) = 7680.
Proof.
  intros idx parent os L.
  destruct (nrun_ok os _ [] (fun _ => 0) (fun _ => None) (rep_setup idx parent)) as (l & p & m & R & S & E); auto.
  { intros s. unfold tab. destruct s; reflexivity. }
  exists m. split; [exact S|]. split.
  - intros s. rewrite E. apply (shows_rep _ l p). exact R.
  - apply (r_len _ _ _ R).
Qed.
Print Assumptions C10_node_table.

(* A name is found by search exactly when some slot holds it under the same low hash bits. *)
Theorem C10_search_exact : forall idx parent os name hash, Forall legal_op os ->
  let n := nrun_impl (dtn_setup idx parent) os in
  exists m : table, nruns (fun _ => None) os m /\
    (forall s, dtn_search n name hash = Some s ->
       exists e, m s = Some e /\ e_name e = name /\ Z.land (e_hash e) HASH_MASK = Z.land hash HASH_MASK) /\
    (dtn_search n name hash = None ->
       forall s e, m s = Some e -> e_name e = name -> Z.land (e_hash e) HASH_MASK <> Z.land hash HASH_MASK).
Proof.
  intros idx parent os name hash L n.
  destruct (nrun_ok os _ [] (fun _ => 0) (fun _ => None) (rep_setup idx parent)) as (l & p & m & R & S & E); auto.
  { intros s. unfold tab. destruct s; reflexivity. }
  exists m. split; [exact S|]. fold n in R. rewrite (rep_search _ _ _ R). split.
  - intros s H. apply find_slot_some in H. destruct H as (_ & H & _). rewrite E. unfold tab.
    destruct (nth s l None) as [e|]; [|discriminate]. cbn [slot_is] in H.
    apply andb_true_iff in H. destruct H as (H1 & H2). apply bytes_eqb_eq in H2. apply Z.eqb_eq in H1.
    exists e. auto.
  - intros H s e Hm Hn Hh. rewrite E in Hm. unfold tab in Hm.
    assert (In (Some e) l) by (rewrite <- Hm; apply nth_In; eapply nth_some_lt; eauto).
    pose proof (find_slot_none _ _ H _ H0) as F. cbn [slot_is] in F.
    rewrite Hh, Z.eqb_refl, Hn, bytes_eqb_refl in F. discriminate.
Qed.
Print Assumptions C10_search_exact.

(* Space is given back: a node from which everything was removed is as roomy as a new one. *)
Theorem C10_space_reusable : forall idx parent os, Forall legal_op os ->
  let n := nrun_impl (dtn_setup idx parent) os in
  (forall s, node_has n s = false) -> dn_nde n = 0 /\ dn_nnb n = 0.
Proof.
  intros idx parent os L n H.
  destruct (nrun_ok os _ [] (fun _ => 0) (fun _ => None) (rep_setup idx parent)) as (l & p & m & R & S & E); auto.
  { intros s. unfold tab. destruct s; reflexivity. }
  fold n in R. assert (l = []).
  { destruct (r_last _ _ _ R) as [|T]; auto. exfalso. apply T.
    specialize (H (length l - 1)%nat). rewrite (node_has_rep _ _ _ _ R) in H.
    destruct (nth (length l - 1) l None); congruence. }
  subst l. rewrite (r_nde _ _ _ R), (r_nnb _ _ _ R). split; reflexivity.
Qed.
Print Assumptions C10_space_reusable.

(* Three names go in, the middle one comes out, a longer one takes its slot. *)
Example C10_ex :
  let e1 := mkDent 11 8 (2 ^ 40 + 5) [97] in
  let e2 := mkDent 12 4 6 [98; 98; 98] in
  let e3 := mkDent 13 8 7 [99; 99] in
  let e4 := mkDent 14 10 8 [100; 100; 100; 100; 100] in
  let n := nrun_impl (dtn_setup 1 (-1)) [NIns e1; NIns e2; NIns e3; NDel 1%nat; NIns e4] in
  Forall legal_op [NIns e1; NIns e2; NIns e3; NDel 1%nat; NIns e4] /\
  map (fun s => (de_ino (dn_data n) s, de_dt (dn_data n) s, de_name (dn_data n) s)) (seq 0 3)
  = [(11, 8, [97]); (14, 10, [100; 100; 100; 100; 100]); (13, 8, [99; 99])] /\
  dn_nde n = 3 /\ dn_nnb n = 8 /\ dtn_search n [99; 99] 7 = Some 2%nat /\ dtn_search n [98; 98; 98] 6 = None.
Proof.
  cbv zeta. split.
  - repeat (constructor; [cbn; repeat split; vm_compute; congruence|]). constructor.
  - vm_compute. repeat split.
Qed.
