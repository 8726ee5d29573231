(* C31: the object cache never loses or duplicates an object.

   Spec: what a user of the cache sees of it is a map from objects in memory (by number) to their
   address, whether they are found by it, whether and in which queue they are dirty, their reference
   and open counts and whether they are pinned.  Each call has an effect on this map; the only freedom
   is which of the objects that may be dropped are dropped by a creation or by a call to shrink. *)
From Coq Require Import ZArith List Lia Bool Permutation.
From Verif Require Import Base AddrModel CacheModel CacheProofs CacheOps CacheLoops.
Import ListNotations.
Open Scope Z_scope.

(* --- specification ------------------------------------------------------------------------------ *)
Record obj := mkObj { o_key : key; o_found : bool; o_dirty : bool; o_queue : qid; o_ref : Z; o_pin : bool; o_open : Z }.
Definition world := Z -> option obj.
Definition inode_key (k : key) : Prop := match k with KV v => va_ltype v = LT_INODE | KU _ => False end.
Definition is_v (k : key) : Prop := match k with KV _ => True | KU _ => False end.
(* what may be dropped: clean, not in use, not pinned; an inode also not open and without dirty objects *)
Definition may_drop (w : world) (i : Z) (o : obj) : Prop :=
  o_dirty o = false /\ o_ref o = 0 /\ o_pin o = false /\
  (inode_key (o_key o) -> o_open o = 0 /\ forall j p, w j = Some p -> o_dirty p = true -> o_queue p <> QIno i).
Definition shrinks (w w' : world) : Prop :=
  forall i, w' i = w i \/ (w' i = None /\ exists o, w i = Some o /\ may_drop w i o).
Definition becomes (w w' : world) (i : Z) (x : option obj) : Prop := forall j, w' j = if j =? i then x else w j.
Definition findable (w : world) (k : key) (i : Z) : Prop := exists o, w i = Some o /\ o_found o = true /\ o_key o = k.
(* the address is one of a stored object: a vnode type for the one cache, a unode type for the other *)
Definition address (k : key) : Prop :=
  match k with
  | KV v => LT_INODE <= va_ltype v <= LT_DATABK
  | KU u => LT_BOOTREC <= ls_ltype (la_lsid (ua_laddr u)) <= LT_SPLEAF
  end.
(* the queue of new objects *)
Definition first_queue (k : key) : qid :=
  match k with KV v => if va_ltype v =? LT_INODE then QIis else QVnis | KU _ => QUnis end.

Inductive call :=
| Lookup (k : key) | Create (k : key) (al : list bool)
| Incref (i : Z) | Decref (i : Z)
| DirtifyV (i : Z) (ii : option Z) | DirtifyU (i : Z) | Undirtify (i : Z) | Reditify (i : Z) | UndirtifyAll (p : Z)
| ForgetV (i : Z) | ForgetU (i : Z)
| Pin (i : Z) (b : bool) | Open (i d : Z)
| Relax (press : Z) (now intern opstart idle : bool) | Drop.
Definition answer := option Z.

Definition queue_live (w : world) (q : qid) : Prop :=
  match q with QIno p => exists o, w p = Some o /\ inode_key (o_key o) | _ => True end.
Definition legal (w : world) (c : call) : Prop :=
  match c with
  | Lookup k => address k
  | Create k _ => address k /\ forall i, ~ findable w k i
  | Incref i | Undirtify i | Pin i _ => exists o, w i = Some o
  | Decref i => exists o, w i = Some o /\ 0 < o_ref o
  | DirtifyV i ii => exists o, w i = Some o /\ is_v (o_key o) /\
      (o_dirty o = false -> queue_live w (match ii with Some p => QIno p | None => o_queue o end))
  | DirtifyU i => exists o, w i = Some o /\ ~ is_v (o_key o)
  | Reditify i => exists o, w i = Some o /\ is_v (o_key o)
  | UndirtifyAll p => exists o, w p = Some o /\ inode_key (o_key o)
  | ForgetV i => exists o, w i = Some o /\ is_v (o_key o) /\
      (o_ref o = 0 -> inode_key (o_key o) -> forall j p, j <> i -> w j = Some p -> o_dirty p = true -> o_queue p <> QIno i)
  | ForgetU i => exists o, w i = Some o /\ ~ is_v (o_key o) /\ o_ref o = 0
  | Open i d => exists o, w i = Some o /\ 0 <= o_open o + d
  | Relax _ _ _ _ _ | Drop => True
  end.
Definition with_dirty (o : obj) (b : bool) (q : qid) := mkObj (o_key o) (o_found o) b q (o_ref o) (o_pin o) (o_open o).
Definition with_ref (o : obj) (x : Z) := mkObj (o_key o) (o_found o) (o_dirty o) (o_queue o) x (o_pin o) (o_open o).
Definition effect (c : call) (r : answer) (w w' : world) : Prop :=
  match c with
  | Lookup k => (forall i, w' i = w i) /\ match r with Some i => findable w k i | None => forall i, ~ findable w k i end
  | Create k al =>
      exists w1, shrinks w w1 /\
      match r with
      | Some i => In true (firstn 4 al) /\ w i = None /\ becomes w1 w' i (Some (mkObj k true false (first_queue k) 0 false 0))
      | None => ~ In true (firstn 4 al) /\ forall i, w' i = w1 i
      end
  | Incref i => exists o, w i = Some o /\ becomes w w' i (Some (with_ref o (o_ref o + 1)))
  | Decref i => exists o, w i = Some o /\ becomes w w' i (Some (with_ref o (o_ref o - 1)))
  | DirtifyV i ii => exists o, w i = Some o /\
      becomes w w' i (Some (if o_dirty o then o else with_dirty o true (match ii with Some p => QIno p | None => o_queue o end)))
  | DirtifyU i => exists o, w i = Some o /\ becomes w w' i (Some (with_dirty o true (o_queue o)))
  | Undirtify i => exists o, w i = Some o /\ becomes w w' i (Some (with_dirty o false (o_queue o)))
  | Reditify i => exists o, w i = Some o /\ becomes w w' i (Some (with_dirty o true (first_queue (o_key o))))
  | UndirtifyAll p => forall j,
      match w j with
      | Some o => (o_queue o = QIno p -> w' j = Some (with_dirty o false (QIno p))) /\ (o_queue o <> QIno p -> w' j = Some o)
      | None => w' j = None
      end
  | ForgetV i => exists o, w i = Some o /\
      becomes w w' i (if 0 <? o_ref o then Some (mkObj (o_key o) false false (o_queue o) (o_ref o) (o_pin o) (o_open o)) else None)
  | ForgetU i => becomes w w' i None
  | Pin i b => exists o, w i = Some o /\ becomes w w' i (Some (mkObj (o_key o) (o_found o) (o_dirty o) (o_queue o) (o_ref o) b (o_open o)))
  | Open i d => exists o, w i = Some o /\ becomes w w' i (Some (mkObj (o_key o) (o_found o) (o_dirty o) (o_queue o) (o_ref o) (o_pin o) (o_open o + d)))
  | Relax _ _ _ _ _ | Drop => shrinks w w'
  end.
(* at most one copy of an object is found *)
Definition one_copy (w : world) : Prop := forall k i j, findable w k i -> findable w k j -> i = j.

(* --- the code ------------------------------------------------------------------------------------- *)
Section Spec.
Variable H64 : lsid -> Z.

Definition view (s : lcache) : world := fun i =>
  match lc_node s i with
  | Some n => Some (mkObj (n_key n) (n_mapped n) (n_inq n) (match n_dq n with Some q => q | None => QVnis end) (n_ref n) (n_pinned n) (n_nopen n))
  | None => None
  end.
Definition unit_of (m : C unit) : C answer := cbind m (fun _ => cret None).
Definition cls_of (k : key) : cls := match k with KV _ => CV | KU _ => CU end.
(* Pin: ii_set_pinned and ii_unpin, lib/namei.c:58-69; Open: i_nopen, update_nopen, lib/namei.c:134-141 *)
Definition step (c : call) : C answer :=
  match c with
  | Lookup k => lcache_lookup H64 (cls_of k) k
  | Create k al => lcache_create H64 (cls_of k) k al
  | Incref i => unit_of (incref i)
  | Decref i => unit_of (decref i)
  | DirtifyV i ii => unit_of (vni_dirtify i ii)
  | DirtifyU i => unit_of (lni_dirtify i)
  | Undirtify i => unit_of (lni_undirtify i)
  | Reditify i => unit_of (reditify_vni i)
  | UndirtifyAll p => fun s => unit_of (undirtify_vnis (length (dq_l (lc_q s (QIno p)))) p) s
  | ForgetV i => unit_of (forget_vni i)
  | ForgetU i => unit_of (forget_uni i)
  | Pin i b => unit_of (upd i (fun n => set_pinned n b))
  | Open i d => unit_of (upd i (fun n => set_nopen n (n_nopen n + d)))
  | Relax press now intern opstart idle => unit_of (lcache_relax press now intern opstart idle)
  | Drop => unit_of lcache_drop
  end.
(* a history of legal calls, with the states between *)
Inductive reach (s0 : lcache) : list call -> lcache -> Prop :=
| reach0 : reach s0 [] s0
| reach1 cs s c s' r : reach s0 cs s -> legal (view s) c -> step c s = COk s' r -> reach s0 (cs ++ [c]) s'.

(* the queues in a state: the members of each are the objects dirty in it, counts and bytes are right *)
Definition queues_right (s : lcache) : Prop := forall q,
  NoDup (dq_l (lc_q s q)) /\
  (forall i, In i (dq_l (lc_q s q)) <-> exists o, view s i = Some o /\ o_dirty o = true /\ o_queue o = q) /\
  dq_sz (lc_q s q) = zlen (dq_l (lc_q s q)) /\
  dq_accum (lc_q s q) = zsum (map (fun i => match view s i with Some o => ltype_size (key_ltype (o_key o)) | None => 0 end) (dq_l (lc_q s q))) /\
  (forall p, q = QIno p -> dq_l (lc_q s q) <> [] -> exists o, view s p = Some o /\ inode_key (o_key o)).

Notation Inv := (Inv H64).
Definition Keys (s : lcache) : Prop := forall i n, lc_node s i = Some n -> key_ok (n_key n) /\ n_sz n = ltype_size (key_ltype (n_key n)).
Definition All (s : lcache) : Prop := Inv s /\ Keys s /\ one_copy (view s).

Lemma address_ok k : address k -> key_ok k.
Proof.
  unfold key_ok. destruct k as [v|u]; cbn [address key_wf key_ltype]; intros H.
  - split; [unfold LT_INODE, LT_DATABK in H; lia|]. unfold ltype_isvnode. apply andb_true_iff. split; apply Z.leb_le; lia.
  - split; [exact Logic.I|exact H].
Qed.
Lemma home_first k : key_ok k -> home k = first_queue k.
Proof.
  intros [W V]. unfold home, first_queue. destruct k as [v|u]; cbn [key_ltype] in *; [reflexivity|].
  destruct (Z.eqb_spec (ls_ltype (la_lsid (ua_laddr u))) LT_INODE); [|reflexivity]. unfold LT_INODE, LT_SPLEAF in *. lia.
Qed.
Lemma inode_key_is n : inode_key (n_key n) <-> is_inode n = true.
Proof. unfold inode_key, is_inode. destruct (n_key n); [symmetry; apply Z.eqb_eq|easy]. Qed.
Lemma is_v_cls n : is_v (n_key n) <-> ncls n = CV.
Proof. unfold is_v, ncls. destruct (n_key n); split; easy. Qed.
Lemma not_v_cls n : ~ is_v (n_key n) <-> ncls n = CU.
Proof. unfold is_v, ncls. destruct (n_key n); split; try easy; tauto. Qed.

Definition obj_of (n : node) : obj :=
  mkObj (n_key n) (n_mapped n) (n_inq n) (match n_dq n with Some q => q | None => QVnis end) (n_ref n) (n_pinned n) (n_nopen n).
Lemma view_some s i n : lc_node s i = Some n -> view s i = Some (obj_of n).
Proof. unfold view. now intros ->. Qed.
Lemma view_none s i : lc_node s i = None -> view s i = None.
Proof. unfold view. now intros ->. Qed.
Lemma view_inv s i o : view s i = Some o -> exists n, lc_node s i = Some n /\ o = obj_of n.
Proof. unfold view. destruct (lc_node s i) as [n|]; [|discriminate]. intros H. exists n. split; [easy|]. unfold obj_of. congruence. Qed.
Lemma still_obj n m : still n = still m -> obj_of n = obj_of m.
Proof.
  intros H. apply still_fields in H as (a & b & c & d & e & f & g & h & k & l & x & y). unfold obj_of. now rewrite a, c, e, g, h, k, l.
Qed.
Lemma still_sz n m : still n = still m -> n_sz n = n_sz m /\ n_key n = n_key m.
Proof. intros H. apply still_fields in H. intuition. Qed.
Lemma find_view s k i : findable (view s) k i <-> finds s k i.
Proof.
  split.
  - intros (o & E & F & K). destruct (view_inv _ _ _ E) as (n & En & ->). exists n. auto.
  - intros (n & E & M & K). exists (obj_of n). rewrite (view_some _ _ _ E). auto.
Qed.
Lemma Inv_queues s : Inv s -> Keys s -> queues_right s.
Proof.
  intros I Ky q. split; [apply I|]. split; [|split; [apply I|split]].
  - intros i. rewrite (I_q _ _ I). split.
    + intros (n & E & Q & D). exists (obj_of n). rewrite (view_some _ _ _ E). cbn. rewrite D. auto.
    + intros (o & E & Q & D). destruct (view_inv _ _ _ E) as (n & En & ->). exists n. cbn in *.
      destruct (g_dq _ _ _ _ (I_node _ _ I _ _ En)) as (q' & Dq & _). rewrite Dq in *. now subst.
  - rewrite (I_qac _ _ I). f_equal. apply map_ext. intros i. unfold sz_in, view. destruct (lc_node s i) as [n|] eqn:E; [|reflexivity].
    cbn. now apply (Ky i n).
  - intros p -> Ne. destruct (dq_l (lc_q s (QIno p))) as [|a t] eqn:El; [easy|].
    destruct (I_qown _ _ I p a) as (n & E & Hi); [rewrite El; now left|]. exists (obj_of n). rewrite (view_some _ _ _ E).
    split; [reflexivity|]. now apply inode_key_is.
Qed.
Lemma quiet_drop s i n : Inv s -> Keys s -> lc_node s i = Some n -> (quiet s i n = true <-> may_drop (view s) i (obj_of n)).
Proof.
  intros I Ky E. pose proof (g_nopen _ _ _ _ (I_node _ _ I _ _ E)) as No.
  assert (X : dq_l (lc_q s (QIno i)) = [] <-> forall j p, view s j = Some p -> o_dirty p = true -> o_queue p <> QIno i).
  { destruct (Inv_queues s I Ky (QIno i)) as (_ & M & _). split.
    - intros Em j p Ej Dj Qj. assert (In j (dq_l (lc_q s (QIno i)))) as W by (apply M; eauto). rewrite Em in W. easy.
    - intros H. destruct (dq_l (lc_q s (QIno i))) as [|a t] eqn:El; [easy|]. destruct (proj1 (M a)) as (o & Eo & Do & Qo); [now left|].
      exfalso. exact (H a o Eo Do Qo). }
  unfold may_drop. cbn [obj_of o_key o_dirty o_ref o_pin o_open]. rewrite inode_key_is. split.
  - intros Q. destruct (quiet_fields _ _ _ Q) as (A & B & D & F). repeat split; auto; [now apply F|].
    match goal with H : is_inode n = true |- _ => destruct (F H) as [_ F2] end. now apply X.
  - intros (A & B & D & F). unfold quiet. rewrite A, B, D. cbn [negb andb Z.eqb].
    destruct (is_inode n) eqn:Hi; [|reflexivity]. destruct (F eq_refl) as [F1 F2]. rewrite F1. cbn. rewrite (proj2 X F2). reflexivity.
Qed.
Lemma Evicts_shrinks s s' : Inv s -> Keys s -> Evicts s s' -> shrinks (view s) (view s').
Proof.
  intros I Ky V i. pose proof (E_node _ _ V i) as X. destruct (lc_node s' i) as [n'|] eqn:E'.
  - left. destruct X as (n & E & St). rewrite (view_some _ _ _ E'), (view_some _ _ _ E). f_equal. now apply still_obj.
  - destruct (lc_node s i) as [n|] eqn:E.
    + right. split; [now apply view_none|]. exists (obj_of n). split; [now apply view_some|]. apply quiet_drop; auto.
    + left. now rewrite !view_none.
Qed.
Lemma Evicts_Keys s s' : Evicts s s' -> Keys s -> Keys s'.
Proof.
  intros V Ky i n' E'. pose proof (E_node _ _ V i) as X. rewrite E' in X. destruct X as (n & E & St).
  apply still_sz in St as [A B]. rewrite A, B. now apply (Ky i).
Qed.
Lemma Same_view s s' : Same s s' -> forall i, view s' i = view s i.
Proof.
  intros S i. unfold view. pose proof (S_node _ _ S i) as A. destruct (lc_node s' i) as [n'|], (lc_node s i) as [n|]; cbn in A; try discriminate; [|reflexivity].
  assert (St : still n' = still n) by congruence. exact (f_equal Some (still_obj _ _ St)).
Qed.

(* one copy stays one copy *)
Lemma shrinks_find w w' k i : shrinks w w' -> findable w' k i -> findable w k i.
Proof. intros S (o & E & F). destruct (S i) as [H|[H _]]; [|congruence]. exists o. split; [congruence|exact F]. Qed.
Lemma one_copy_sub w w' : (forall k i, findable w' k i -> findable w k i) -> one_copy w -> one_copy w'.
Proof. intros S O k i j Hi Hj. apply (O k); auto. Qed.
Lemma becomes_sub w w' i o x : becomes w w' i x -> w i = Some o ->
  match x with Some y => o_key y = o_key o /\ (o_found y = true -> o_found o = true) | None => True end ->
  forall k j, findable w' k j -> findable w k j.
Proof.
  intros B E X k j (y & Ey & F & K). rewrite B in Ey. destruct (Z.eqb_spec j i) as [->|]; [|exists y; auto].
  destruct x as [y'|]; [|discriminate]. assert (y' = y) by congruence. subst y'. destruct X as [X1 X2]. exists o. rewrite X1 in K. auto.
Qed.
Lemma effect_one c r w w' : legal w c -> effect c r w w' -> one_copy w -> one_copy w'.
Proof.
  intros L Ef O. destruct c; cbn [legal effect] in *.
  - destruct Ef as [V _]. apply (one_copy_sub w); [|easy]. intros k0 i (o & E & F). exists o. now rewrite <- V.
  - destruct Ef as (w1 & S & Ef). destruct L as [_ L].
    assert (O1 : one_copy w1) by (apply (one_copy_sub w); [intros; eapply shrinks_find; eauto|easy]). destruct r as [i|].
    + destruct Ef as (_ & Nw & B). intros k' x y (ox & Ex & Fx & Kx) (oy & Ey & Fy & Ky). rewrite B in Ex, Ey.
      assert (Nk : forall z oz, w1 z = Some oz -> o_found oz = true -> o_key oz <> k).
      { intros z oz Ez Fz Kz. apply (L z). eapply shrinks_find; eauto. exists oz. auto. }
      destruct (Z.eqb_spec x i) as [->|], (Z.eqb_spec y i) as [->|]; [reflexivity| | |].
      * exfalso. assert (ox = mkObj k true false (first_queue k) 0 false 0) by congruence. subst ox. cbn in Kx. apply (Nk y oy); congruence.
      * exfalso. assert (oy = mkObj k true false (first_queue k) 0 false 0) by congruence. subst oy. cbn in Ky. apply (Nk x ox); congruence.
      * apply (O1 k'); [exists ox|exists oy]; auto.
    + destruct Ef as [_ V]. apply (one_copy_sub w1); [|easy]. intros k0 i (o & E & F). exists o. now rewrite <- V.
  - destruct Ef as (o & E & B). apply (one_copy_sub w); [|easy]. eapply becomes_sub; eauto. cbn. auto.
  - destruct Ef as (o & E & B). apply (one_copy_sub w); [|easy]. eapply becomes_sub; eauto. cbn. auto.
  - destruct Ef as (o & E & B). apply (one_copy_sub w); [|easy]. eapply becomes_sub; eauto. destruct (o_dirty o); cbn; auto.
  - destruct Ef as (o & E & B). apply (one_copy_sub w); [|easy]. eapply becomes_sub; eauto. cbn. auto.
  - destruct Ef as (o & E & B). apply (one_copy_sub w); [|easy]. eapply becomes_sub; eauto. cbn. auto.
  - destruct Ef as (o & E & B). apply (one_copy_sub w); [|easy]. eapply becomes_sub; eauto. cbn. auto.
  - apply (one_copy_sub w); [|easy]. intros k i (y & Ey & F & K). specialize (Ef i). destruct (w i) as [o|] eqn:E; [|congruence].
    destruct Ef as [E1 E2]. destruct (qid_dec (o_queue o) (QIno p)) as [Q|Q].
    + rewrite (E1 Q) in Ey. exists o. assert (y = with_dirty o false (QIno p)) by congruence. subst y. auto.
    + rewrite (E2 Q) in Ey. exists o. assert (y = o) by congruence. subst y. auto.
  - destruct Ef as (o & E & B). apply (one_copy_sub w); [|easy]. eapply becomes_sub; eauto. destruct (0 <? o_ref o); cbn; auto. split; [reflexivity|discriminate].
  - destruct L as (o & E & _). apply (one_copy_sub w); [|easy]. eapply becomes_sub; eauto. exact Logic.I.
  - destruct Ef as (o & E & B). apply (one_copy_sub w); [|easy]. eapply becomes_sub; eauto. cbn. auto.
  - destruct Ef as (o & E & B). apply (one_copy_sub w); [|easy]. eapply becomes_sub; eauto. cbn. auto.
  - apply (one_copy_sub w); [|easy]. intros; eapply shrinks_find; eauto.
  - apply (one_copy_sub w); [|easy]. intros; eapply shrinks_find; eauto.
Qed.

(* an object becomes another *)
Lemma becomes_view s s' i n' : (forall j, lc_node s' j = fset (lc_node s) i n' j) -> becomes (view s) (view s') i (option_map obj_of n').
Proof.
  intros N j. unfold view at 1. rewrite N. unfold fset. destruct (Z.eqb_spec j i); [destruct n'; reflexivity|reflexivity].
Qed.
Lemma Keys_put s s' i n n' : Keys s -> lc_node s i = Some n -> (forall j, lc_node s' j = fset (lc_node s) i n' j) ->
  match n' with Some m => n_key m = n_key n /\ n_sz m = n_sz n | None => True end -> Keys s'.
Proof.
  intros Ky E N X j m Ej. rewrite N in Ej. unfold fset in Ej. destruct (Z.eqb_spec j i) as [->|].
  - subst n'. destruct X as [-> ->]. now apply (Ky i).
  - now apply (Ky j).
Qed.
Lemma unit_ok (m : C unit) s s' : m s = COk s' tt -> unit_of m s = COk s' None.
Proof. intros R. unfold unit_of. now rewrite (bind_ok _ _ _ _ _ R). Qed.

Lemma legal_node s i (P : obj -> Prop) : (exists o, view s i = Some o /\ P o) -> exists n, lc_node s i = Some n /\ P (obj_of n).
Proof. intros (o & E & H). destruct (view_inv _ _ _ E) as (n & En & ->). eauto. Qed.
Lemma queue_live_ok s q : queue_live (view s) q -> q_live s q.
Proof.
  destruct q; cbn [queue_live q_live]; auto. intros (o & E & H). destruct (view_inv _ _ _ E) as (n & En & ->).
  rewrite En. cbn. now apply inode_key_is.
Qed.
Lemma dq_of s i n : Inv s -> lc_node s i = Some n -> n_dq n = Some (o_queue (obj_of n)).
Proof. intros I E. destruct (g_dq _ _ _ _ (I_node _ _ I _ _ E)) as (q & D & _). cbn. now rewrite D. Qed.

Lemma Inv_simple s i n n' : Inv s -> lc_node s i = Some n -> n_key n' = n_key n -> n_hash n' = n_hash n -> n_mapped n' = n_mapped n ->
  n_inq n' = n_inq n -> n_sz n' = n_sz n -> n_dq n' = n_dq n -> n_forgot n' = n_forgot n -> 0 <= n_ref n' -> 0 <= n_nopen n' ->
  Inv (put_node s i (Some n')).
Proof.
  intros I E K H M Q Z D Fg R O. apply (Inv_attr H64 s i n n' I E K H M Q Z (fun _ => D)).
  destruct (I_node _ _ I _ _ E) as [a b c d e f g h]. constructor; unfold ncls in *; rewrite ?K, ?H, ?M, ?Z, ?D, ?Fg; auto.
Qed.

Lemma step_ok c s : All s -> legal (view s) c ->
  exists s' r, step c s = COk s' r /\ Inv s' /\ Keys s' /\ effect c r (view s) (view s').
Proof.
  intros (I & Ky & One) L. destruct c; cbn [legal step effect] in *.
  - (* Lookup *)
    destruct (lookup_ok H64 s k I (proj1 (address_ok k L))) as (s' & r & R & S & P). exists s', r. split; [exact R|].
    split; [eapply Same_Inv; eauto|]. split; [eapply Evicts_Keys; [apply Same_Evicts; eauto|easy]|]. split; [now apply Same_view|].
    destruct r as [i|]; [now apply find_view|]. intros i Hi. apply (P i). now apply find_view.
  - (* Create *)
    destruct L as [Ad L]. pose proof (address_ok k Ad) as Ko. destruct (create_ok H64 s k al I Ko) as (s1 & s' & I1 & V1 & X).
    pose proof (Evicts_Keys _ _ V1 Ky) as Ky1. destruct (existsb (fun b => b) (firstn 4 al)) eqn:Al.
    + destruct X as (R & I' & (B1 & B2 & B3 & B4 & B5 & B6)). exists s', (Some (lc_next s1)). split; [exact R|]. split; [easy|]. split.
      { intros j m Ej. rewrite B4 in Ej. unfold fset in Ej. destruct (j =? lc_next s1); [|now apply (Ky1 j)].
        assert (m = fresh H64 k) by congruence. subst m. split; [exact Ko|reflexivity]. }
      exists (view s1). split; [now apply Evicts_shrinks|]. split; [|split].
      * apply existsb_exists in Al as (b & Hb & E). now subst b.
      * apply view_none. destruct (E_frame _ _ V1) as [_ Nx]. rewrite Nx. now apply (next_free H64).
      * intros j. rewrite (becomes_view _ _ _ _ B4 j). cbn [option_map]. rewrite <- (home_first k Ko). reflexivity.
    + destruct X as (R & ->). exists s1, None. split; [exact R|]. split; [easy|]. split; [easy|]. exists (view s1).
      split; [now apply Evicts_shrinks|]. split; [|easy]. intros H. enough (existsb (fun b => b) (firstn 4 al) = true) by congruence.
      apply existsb_exists. eauto.
  - (* Incref *)
    destruct L as (o & Eo). destruct (view_inv _ _ _ Eo) as (n & E & ->). pose proof (g_ref _ _ _ _ (I_node _ _ I _ _ E)) as Rf.
    pose proof (g_nopen _ _ _ _ (I_node _ _ I _ _ E)) as Np.
    exists (put_node s i (Some (set_ref n (n_ref n + 1)))), None. split.
    { apply unit_ok. unfold incref. rewrite (bind_ok _ _ _ _ _ (sanitize_ok _ _ _ E Rf)). now rewrite (upd_ok i _ s n). }
    split; [apply (Inv_simple s i n); auto; cbn; lia|]. split; [eapply Keys_put; eauto; [reflexivity|cbn; auto]|].
    exists (obj_of n). split; [easy|]. apply (becomes_view s _ i (Some (set_ref n (n_ref n + 1)))). reflexivity.
  - (* Decref *)
    destruct (legal_node s i _ L) as (n & E & Rp). cbn in Rp. pose proof (g_nopen _ _ _ _ (I_node _ _ I _ _ E)) as Np.
    exists (put_node s i (Some (set_ref n (n_ref n - 1)))), None. split.
    { apply unit_ok. unfold decref. rewrite (bind_ok _ _ _ _ _ (sanitize_ok _ s n E ltac:(lia))). now rewrite (upd_ok i _ s n). }
    split; [apply (Inv_simple s i n); auto; cbn; lia|]. split; [eapply Keys_put; eauto; [reflexivity|cbn; auto]|].
    exists (obj_of n). split; [now apply view_some|]. apply (becomes_view s _ i (Some (set_ref n (n_ref n - 1)))). reflexivity.
  - (* DirtifyV *)
    destruct (legal_node s i _ L) as (n & E & Vc & Ql). apply is_v_cls in Vc. cbn [obj_of o_dirty] in Ql.
    destruct (n_inq n) eqn:Q.
    + exists s, None. split; [apply unit_ok, (dirtify_noop s i n); auto|]. split; [easy|]. split; [easy|]. exists (obj_of n).
      split; [now apply view_some|]. cbn [obj_of o_dirty]. rewrite Q. intros j. destruct (Z.eqb_spec j i) as [->|]; [now apply view_some|reflexivity].
    + destruct (dirtify_eff H64 s i n ii I E Q Vc) as (s' & q & R & I' & F & T & N & Hm & Nq).
      { intros q Hq. apply queue_live_ok. specialize (Ql eq_refl). destruct ii as [p|]; cbn [target] in Hq.
        - assert (q = QIno p) by congruence. now subst q.
        - rewrite (dq_of s i n I E) in Hq. assert (q = o_queue (obj_of n)) by congruence. now subst q. }
      exists s', None. split; [now apply unit_ok|]. split; [easy|]. split; [eapply Keys_put; eauto; cbn; auto|].
      exists (obj_of n). split; [now apply view_some|].
      assert (W : (if o_dirty (obj_of n) then obj_of n else with_dirty (obj_of n) true (match ii with Some p => QIno p | None => o_queue (obj_of n) end))
                  = obj_of (set_inq (set_dq n (Some q)) true)).
      { cbn [obj_of o_dirty]. rewrite Q. unfold with_dirty, obj_of. cbn. f_equal. destruct ii as [p|]; cbn [target] in T; [congruence|now rewrite T]. }
      rewrite W. exact (becomes_view s s' i _ N).
  - (* DirtifyU *)
    destruct (legal_node s i _ L) as (n & E & Vc). apply not_v_cls in Vc.
    assert (Sq : with_dirty (obj_of n) true (o_queue (obj_of n)) = obj_of (set_inq n true)) by reflexivity.
    destruct (n_inq n) eqn:Q.
    + exists s, None. split; [apply unit_ok, (dirtifyu_noop s i n); auto|]. split; [easy|]. split; [easy|]. exists (obj_of n).
      split; [now apply view_some|]. rewrite Sq, (set_inq_id n true Q). intros j. destruct (Z.eqb_spec j i) as [->|]; [now apply view_some|reflexivity].
    + destruct (g_dq _ _ _ _ (I_node _ _ I _ _ E)) as (q & D & Dq). specialize (Dq Vc). subst q.
      destruct (enqueue_eff H64 s i n QUnis I E Q D Logic.I) as (s' & R & I' & F & N & Hm & Nq).
      exists s', None. split; [now apply unit_ok|]. split; [easy|]. split; [eapply Keys_put; eauto; cbn; auto|].
      exists (obj_of n). split; [now apply view_some|]. rewrite Sq. exact (becomes_view s s' i _ N).
  - (* Undirtify *)
    destruct L as (o & Eo). destruct (view_inv _ _ _ Eo) as (n & E & ->).
    destruct (undirtify_eff H64 s i n I E) as (s' & R & I' & F & N & Hm & Nq).
    exists s', None. split; [now apply unit_ok|]. split; [easy|]. split; [eapply Keys_put; eauto; cbn; auto|].
    exists (obj_of n). split; [easy|]. exact (becomes_view s s' i _ N).
  - (* Reditify *)
    destruct (legal_node s i _ L) as (n & E & Vc). apply is_v_cls in Vc. destruct (Ky i n E) as [Ko _].
    destruct (reditify_eff H64 s i n I E Vc Ko) as (s' & R & I' & F & N & Hm & Nq).
    exists s', None. split; [now apply unit_ok|]. split; [easy|]. split; [eapply Keys_put; eauto; cbn; auto|].
    exists (obj_of n). split; [now apply view_some|]. cbn [obj_of o_key]. rewrite <- (home_first _ Ko). exact (becomes_view s s' i _ N).
  - (* UndirtifyAll *)
    destruct (legal_node s p _ L) as (n & E & Hi).
    destruct (undirtify_vnis_eff H64 (length (dq_l (lc_q s (QIno p)))) s p I (ex_intro _ n E) (le_n _)) as (s' & R & I' & F & N & Hm & Nq).
    exists s', None. split; [unfold unit_of; now rewrite (bind_ok _ _ _ _ _ R)|]. split; [easy|]. split.
    { intros j m Ej. rewrite N in Ej. destruct (lc_node s j) as [m0|] eqn:E0; [|discriminate]. destruct (Ky j m0 E0).
      assert (X : m = if has j (dq_l (lc_q s (QIno p))) then set_inq m0 false else m0) by congruence. subst m.
      destruct (has j (dq_l (lc_q s (QIno p)))); auto. }
    intros j. unfold view at 1. destruct (lc_node s j) as [m|] eqn:E0.
    2:{ apply view_none. now rewrite N, E0. }
    fold (obj_of m).
    assert (E' : lc_node s' j = Some (if has j (dq_l (lc_q s (QIno p))) then set_inq m false else m)) by now rewrite N, E0.
    rewrite (view_some _ _ _ E'). pose proof (dq_of s j m I E0) as D. cbn [o_queue] in *.
    assert (M : has j (dq_l (lc_q s (QIno p))) = true <-> n_inq m = true /\ n_dq m = Some (QIno p)).
    { rewrite has_In, (I_q _ _ I). split; [intros (m1 & E1 & A & B); assert (m1 = m) by congruence; now subst|intros [A B]; eauto]. }
    destruct (has j (dq_l (lc_q s (QIno p)))) eqn:Hh.
    + destruct (proj1 M eq_refl) as [A B]. rewrite B in *. split; [|congruence]. intros _. f_equal. unfold with_dirty, obj_of. cbn. now rewrite B.
    + split; [|reflexivity]. intros Hq. f_equal. unfold with_dirty, obj_of. cbn.
      assert (B : n_dq m = Some (QIno p)) by congruence. rewrite B in *. f_equal.
      destruct (n_inq m); [|reflexivity]. assert (false = true) by (apply M; auto). discriminate.
  - (* ForgetV *)
    destruct (legal_node s i _ L) as (n & E & Vc & Own). apply is_v_cls in Vc.
    destruct (forget_eff H64 s i n I E Vc) as (s' & R & I' & F & N & Hm & Nq).
    { intros R0 Hi. destruct (del i (dq_l (lc_q s (QIno i)))) as [|a t] eqn:El; [reflexivity|]. exfalso.
      assert (Ha : In a (del i (dq_l (lc_q s (QIno i))))) by (rewrite El; now left). apply In_del in Ha as [Ha Na].
      apply (I_q _ _ I) in Ha as (m & Em & Qm & Dm). apply inode_key_is in Hi.
      refine (Own R0 Hi a (obj_of m) Na (view_some _ _ _ Em) Qm _). cbn. now rewrite Dm. }
    exists s', None. split; [now apply unit_ok|]. split; [easy|]. split.
    { eapply Keys_put; eauto. destruct (0 <? n_ref n); cbn; auto. }
    exists (obj_of n). split; [now apply view_some|]. change (o_ref (obj_of n)) with (n_ref n).
    pose proof (becomes_view s s' i _ N) as B. destruct (0 <? n_ref n); exact B.
  - (* ForgetU *)
    destruct (legal_node s i _ L) as (n & E & Vc & R0). apply not_v_cls in Vc.
    destruct (evict_eff H64 s CU i n I E Vc R0) as (s' & R & I' & F & N & Hm & Nq); [discriminate| |].
    { intros Hi. unfold is_inode, ncls in *. destruct (n_key n); discriminate. }
    exists s', None. split; [now apply unit_ok|]. split; [easy|]. split; [eapply Keys_put; eauto; exact Logic.I|].
    exact (becomes_view s s' i None N).
  - (* Pin *)
    destruct L as (o & Eo). destruct (view_inv _ _ _ Eo) as (n & E & ->). pose proof (I_node _ _ I _ _ E) as G.
    exists (put_node s i (Some (set_pinned n b))), None. split; [apply unit_ok; now rewrite (upd_ok i _ s n)|].
    split; [apply (Inv_simple s i n); auto; apply G|]. split; [eapply Keys_put; eauto; [reflexivity|cbn; auto]|].
    exists (obj_of n). split; [easy|]. apply (becomes_view s _ i (Some (set_pinned n b))). reflexivity.
  - (* Open *)
    destruct (legal_node s i _ L) as (n & E & Np). cbn in Np. pose proof (I_node _ _ I _ _ E) as G.
    exists (put_node s i (Some (set_nopen n (n_nopen n + d)))), None. split; [apply unit_ok; now rewrite (upd_ok i _ s n)|].
    split; [apply (Inv_simple s i n); auto; apply G|]. split; [eapply Keys_put; eauto; [reflexivity|cbn; auto]|].
    exists (obj_of n). split; [now apply view_some|]. apply (becomes_view s _ i (Some (set_nopen n (n_nopen n + d)))). reflexivity.
  - (* Relax *)
    destruct (relax_ok H64 press now intern opstart idle s I) as (s' & R & I' & V). exists s', None. split; [now apply unit_ok|].
    split; [easy|]. split; [eapply Evicts_Keys; eauto|now apply Evicts_shrinks].
  - (* Drop *)
    destruct (drop_ok H64 s I) as (s' & R & I' & V). exists s', None. split; [now apply unit_ok|].
    split; [easy|]. split; [eapply Evicts_Keys; eauto|now apply Evicts_shrinks].
Qed.
Lemma init_All nv nu : 0 < nv -> 0 < nu -> All (lcache_init nv nu).
Proof.
  intros Hv Hu. split; [|split].
  - constructor; cbn; intros; try constructor; try easy; try (destruct c; lia).
    + intros (n & E & _). discriminate.
    + intros (n & E & _). discriminate.
    + intros (n & E & _). discriminate.
  - intros i n E. discriminate.
  - intros k i j (o & E & _). discriminate.
Qed.

Lemma reach_All nv nu cs s : 0 < nv -> 0 < nu -> reach (lcache_init nv nu) cs s -> All s.
Proof.
  intros Hv Hu R. induction R as [|cs s c s' r R IH L E]; [now apply init_All|].
  destruct (step_ok c s IH L) as (s2 & r2 & E2 & I2 & K2 & F2). assert (s2 = s' /\ r2 = r) as [-> ->] by (split; congruence).
  split; [easy|]. split; [easy|]. apply (effect_one c r (view s)); auto. apply IH.
Qed.

(* every legal call in every history is done without a failed assertion or access to a deleted object,
   has its effect, and at most one copy is found; the queues are those of the dirty objects *)
Theorem C31_history nv nu cs s : 0 < nv -> 0 < nu -> reach (lcache_init nv nu) cs s ->
  one_copy (view s) /\ queues_right s /\
  forall c, legal (view s) c -> exists s' r, step c s = COk s' r /\ effect c r (view s) (view s').
Proof.
  intros Hv Hu R. pose proof (reach_All nv nu cs s Hv Hu R) as A. split; [apply A|]. split; [apply Inv_queues; apply A|].
  intros c L. destruct (step_ok c s A L) as (s' & r & E & _ & _ & F). eauto.
Qed.
(* a lookup gives the object stored for exactly that address, for any hash function *)
Theorem C31_lookup nv nu cs s k : 0 < nv -> 0 < nu -> reach (lcache_init nv nu) cs s -> address k ->
  exists s' r, step (Lookup k) s = COk s' r /\ (forall i, view s' i = view s i) /\
    forall i, r = Some i <-> findable (view s) k i.
Proof.
  intros Hv Hu R Ad. destruct (C31_history nv nu cs s Hv Hu R) as (One & _ & St). destruct (St (Lookup k) Ad) as (s' & r & E & V & F).
  exists s', r. split; [easy|]. split; [easy|]. intros i. destruct r as [x|]; split.
  - intros H. assert (x = i) by congruence. now subst.
  - intros H. f_equal. now apply (One k).
  - discriminate.
  - intros H. exfalso. exact (F i H).
Qed.
(* what is dirty, referenced, pinned, open, or has dirty objects stays until it is forgotten *)
Theorem C31_kept nv nu cs s c s' r i o : 0 < nv -> 0 < nu -> reach (lcache_init nv nu) cs s -> legal (view s) c -> step c s = COk s' r ->
  view s i = Some o -> ~ may_drop (view s) i o -> c <> ForgetV i -> c <> ForgetU i ->
  exists o', view s' i = Some o' /\ o_key o' = o_key o /\ ((forall j, c <> ForgetV j) -> o_found o' = o_found o).
Proof.
  intros Hv Hu R L E V M N1 N2. destruct (C31_history nv nu cs s Hv Hu R) as (One & _ & St). destruct (St c L) as (s2 & r2 & E2 & F).
  assert (s2 = s' /\ r2 = r) as [-> ->] by (split; congruence). clear E2 St.
  assert (Sh : forall w', shrinks (view s) w' -> w' i = Some o).
  { intros w' S. destruct (S i) as [->|(_ & o2 & Eo & D)]; [easy|]. assert (o2 = o) by congruence. now subst. }
  assert (Bc : forall j x, becomes (view s) (view s') j x -> (j = i -> exists y, x = Some y /\ o_key y = o_key o /\ o_found y = o_found o) ->
    exists o', view s' i = Some o' /\ o_key o' = o_key o /\ ((forall j, c <> ForgetV j) -> o_found o' = o_found o)).
  { intros j x B H. rewrite B. destruct (Z.eqb_spec i j) as [->|]; [|eauto].
    destruct (H eq_refl) as (y & -> & K & Fd). eauto. }
  destruct c; cbn [effect] in F.
  - destruct F as [F _]. rewrite F. eauto.
  - destruct F as (w1 & S & F). specialize (Sh w1 S). destruct r as [x|].
    + destruct F as (_ & Nx & B). rewrite B. destruct (Z.eqb_spec i x) as [->|]; [congruence|eauto].
    + destruct F as (_ & B). rewrite B. eauto.
  - destruct F as (o1 & E1 & B). apply (Bc _ _ B). intros ->. assert (o1 = o) by congruence. subst. eexists. split; [reflexivity|]. auto.
  - destruct F as (o1 & E1 & B). apply (Bc _ _ B). intros ->. assert (o1 = o) by congruence. subst. eexists. split; [reflexivity|]. auto.
  - destruct F as (o1 & E1 & B). apply (Bc _ _ B). intros ->. assert (o1 = o) by congruence. subst. eexists. split; [reflexivity|]. destruct (o_dirty o); auto.
  - destruct F as (o1 & E1 & B). apply (Bc _ _ B). intros ->. assert (o1 = o) by congruence. subst. eexists. split; [reflexivity|]. auto.
  - destruct F as (o1 & E1 & B). apply (Bc _ _ B). intros ->. assert (o1 = o) by congruence. subst. eexists. split; [reflexivity|]. auto.
  - destruct F as (o1 & E1 & B). apply (Bc _ _ B). intros ->. assert (o1 = o) by congruence. subst. eexists. split; [reflexivity|]. auto.
  - specialize (F i). rewrite V in F. destruct F as [F1 F2]. destruct (qid_dec (o_queue o) (QIno p)) as [Q|Q]; [rewrite (F1 Q)|rewrite (F2 Q)]; eauto.
  - destruct F as (o1 & E1 & B). apply (Bc _ _ B). congruence.
  - apply (Bc _ _ F). congruence.
  - destruct F as (o1 & E1 & B). apply (Bc _ _ B). intros ->. assert (o1 = o) by congruence. subst. eexists. split; [reflexivity|]. auto.
  - destruct F as (o1 & E1 & B). apply (Bc _ _ B). intros ->. assert (o1 = o) by congruence. subst. eexists. split; [reflexivity|]. auto.
  - rewrite (Sh _ F). eauto.
  - rewrite (Sh _ F). eauto.
Qed.
(* dropping drops all it may, if any object is found at all *)
Theorem C31_drop_all nv nu cs s : 0 < nv -> 0 < nu -> reach (lcache_init nv nu) cs s ->
  (forall l, NoDup l -> (forall i, In i l -> view s i <> None) -> zlen l <= 4294967295) ->
  (exists k i, findable (view s) k i) ->
  exists s' r, step Drop s = COk s' r /\ shrinks (view s) (view s') /\
    forall i o, view s i = Some o -> (view s' i = None <-> may_drop (view s) i o).
Proof.
  intros Hv Hu R B (k & i0 & Fi). destruct (reach_All nv nu cs s Hv Hu R) as (I & Ky & One).
  assert (U : usage_sum s <> 0).
  { apply find_view in Fi as (n & E & M & K). unfold usage_sum. rewrite !(I_size _ _ I).
    assert (P : In i0 (filter (mapped_in s) (hq_lru (lc_hm s (ncls n))))).
    { apply filter_In. split; [apply (I_lru _ _ I); eauto|]. unfold mapped_in. now rewrite E. }
    pose proof (zlen_nonneg _ (filter (mapped_in s) (hq_lru (lc_hm s CV)))). pose proof (zlen_nonneg _ (filter (mapped_in s) (hq_lru (lc_hm s CU)))).
    assert (0 < zlen (filter (mapped_in s) (hq_lru (lc_hm s (ncls n))))).
    { destruct (filter _ _) as [|a t]; [easy|]. rewrite zlen_cons. pose proof (zlen_nonneg _ t). lia. }
    destruct (ncls n); lia. }
  destruct (drop_all H64 s I U) as (s' & Rn & I' & V & Q).
  { intros c. rewrite (I_sz _ _ I). apply B; [apply I|]. intros i Hi. apply (I_lru _ _ I) in Hi as (n & E & _). rewrite (view_some _ _ _ E). discriminate. }
  exists s', None. split; [cbn [step]; now apply unit_ok|]. split; [now apply Evicts_shrinks|]. intros i o Vo.
  destruct (view_inv _ _ _ Vo) as (n & E & ->). rewrite <- (quiet_drop s i n I Ky E). pose proof (E_node _ _ V i) as X. split.
  - intros Vn. destruct (lc_node s' i) as [n'|] eqn:E'; [rewrite (view_some _ _ _ E') in Vn; discriminate|]. now apply X.
  - intros Qt. destruct (lc_node s' i) as [n'|] eqn:E'; [|now apply view_none]. destruct X as (m & Em & St).
    assert (m = n) by congruence. subst m. pose proof (Q i n' E') as Q'. rewrite (quiet_same s s' i n n' St (E_q _ _ V)) in Q'. congruence.
Qed.

(* --- running histories ---------------------------------------------------------------------------- *)
Definition addressb (k : key) : bool :=
  match k with
  | KV v => (LT_INODE <=? va_ltype v) && (va_ltype v <=? LT_DATABK)
  | KU u => (LT_BOOTREC <=? ls_ltype (la_lsid (ua_laddr u))) && (ls_ltype (la_lsid (ua_laddr u)) <=? LT_SPLEAF)
  end.
Definition isvb (n : node) : bool := match n_key n with KV _ => true | KU _ => false end.
Definition qliveb (s : lcache) (q : qid) : bool := match q with QIno p => is_ino (lc_node s p) | _ => true end.
Definition okb (c : call) (s : lcache) : bool :=
  match c with
  | Lookup k => addressb k
  | Create k _ => addressb k && match step (Lookup k) s with COk _ None => true | _ => false end
  | Incref i | Undirtify i | Pin i _ => match lc_node s i with Some _ => true | None => false end
  | Decref i => match lc_node s i with Some n => 0 <? n_ref n | None => false end
  | DirtifyV i ii => match lc_node s i with
      | Some n => isvb n && (n_inq n || qliveb s (match ii with Some p => QIno p | None => o_queue (obj_of n) end)) | None => false end
  | DirtifyU i => match lc_node s i with Some n => negb (isvb n) | None => false end
  | Reditify i => match lc_node s i with Some n => isvb n | None => false end
  | UndirtifyAll p => is_ino (lc_node s p)
  | ForgetV i => match lc_node s i with
      | Some n => isvb n && ((0 <? n_ref n) || negb (is_inode n) || match del i (dq_l (lc_q s (QIno i))) with [] => true | _ => false end) | None => false end
  | ForgetU i => match lc_node s i with Some n => negb (isvb n) && (n_ref n =? 0) | None => false end
  | Open i d => match lc_node s i with Some n => 0 <=? n_nopen n + d | None => false end
  | Relax _ _ _ _ _ | Drop => true
  end.
Lemma addressb_ok k : addressb k = true -> address k.
Proof. destruct k; cbn [addressb address]; rewrite andb_true_iff, !Z.leb_le; lia. Qed.
Lemma isvb_v n : isvb n = true <-> is_v (n_key n).
Proof. unfold isvb, is_v. now destruct (n_key n). Qed.
Lemma okb_legal c s : All s -> okb c s = true -> legal (view s) c.
Proof.
  intros A. pose proof A as (I & Ky & One). destruct c; cbn [okb legal]; try tauto.
  - apply addressb_ok.
  - rewrite andb_true_iff. intros [Ad H]. apply addressb_ok in Ad. split; [easy|].
    destruct (step_ok (Lookup k) s A Ad) as (s' & r & E & _ & _ & _ & F). rewrite E in H. destruct r; [discriminate|easy].
  - destruct (lc_node s i) as [n|] eqn:E; [|discriminate]. intros _. exists (obj_of n). now apply view_some.
  - destruct (lc_node s i) as [n|] eqn:E; [|discriminate]. intros H. apply Z.ltb_lt in H. exists (obj_of n). split; [now apply view_some|exact H].
  - destruct (lc_node s i) as [n|] eqn:E; [|discriminate]. rewrite andb_true_iff. intros [Hv H]. apply isvb_v in Hv. exists (obj_of n).
    split; [now apply view_some|]. split; [exact Hv|]. intros Dn. change (n_inq n = false) in Dn. rewrite Dn in H. cbn [orb] in H.
    destruct (match ii with Some p => QIno p | None => o_queue (obj_of n) end) as [| | |p]; cbn [queue_live]; auto.
    cbn [qliveb] in H. destruct (lc_node s p) as [m|] eqn:Em; [|discriminate]. exists (obj_of m). split; [now apply view_some|].
    apply inode_key_is. exact H.
  - destruct (lc_node s i) as [n|] eqn:E; [|discriminate]. intros H. exists (obj_of n). split; [now apply view_some|].
    intros X. apply isvb_v in X. rewrite X in H. discriminate.
  - destruct (lc_node s i) as [n|] eqn:E; [|discriminate]. intros _. exists (obj_of n). now apply view_some.
  - destruct (lc_node s i) as [n|] eqn:E; [|discriminate]. intros H. exists (obj_of n). split; [now apply view_some|now apply isvb_v].
  - destruct (lc_node s p) as [n|] eqn:E; [|discriminate]. intros H. exists (obj_of n). split; [now apply view_some|now apply inode_key_is].
  - destruct (lc_node s i) as [n|] eqn:E; [|discriminate]. rewrite andb_true_iff. intros [Hv H]. apply isvb_v in Hv. exists (obj_of n).
    split; [now apply view_some|]. split; [exact Hv|]. intros R0 Hi j p Nj Ej Dj Qj. change (n_ref n = 0) in R0. rewrite R0 in H.
    apply inode_key_is in Hi. rewrite Hi in H. cbn [Z.ltb orb negb] in H.
    destruct (view_inv _ _ _ Ej) as (m & Em & ->). assert (W : In j (del i (dq_l (lc_q s (QIno i))))).
    { apply In_del. split; [|easy]. apply (I_q _ _ I). exists m. split; [easy|]. split; [exact Dj|]. rewrite (dq_of s j m I Em). now rewrite Qj. }
    destruct (del i (dq_l (lc_q s (QIno i)))); [easy|discriminate].
  - destruct (lc_node s i) as [n|] eqn:E; [|discriminate]. rewrite andb_true_iff. intros [Hv H]. apply Z.eqb_eq in H. exists (obj_of n).
    split; [now apply view_some|]. split; [|exact H]. intros X. apply isvb_v in X. rewrite X in Hv. discriminate.
  - destruct (lc_node s i) as [n|] eqn:E; [|discriminate]. intros _. exists (obj_of n). now apply view_some.
  - destruct (lc_node s i) as [n|] eqn:E; [|discriminate]. intros H. apply Z.leb_le in H. exists (obj_of n). split; [now apply view_some|exact H].
Qed.
Fixpoint exec (cs : list call) (s : lcache) : option lcache :=
  match cs with
  | [] => Some s
  | c :: t => if okb c s then match step c s with COk s' _ => exec t s' | CBad => None end else None
  end.
Lemma exec_reach nv nu : 0 < nv -> 0 < nu -> forall cs cs0 s s', reach (lcache_init nv nu) cs0 s -> exec cs s = Some s' ->
  reach (lcache_init nv nu) (cs0 ++ cs) s'.
Proof.
  intros Hv Hu. induction cs as [|c t IH]; intros cs0 s s' R E; cbn [exec] in E.
  - rewrite app_nil_r. congruence.
  - destruct (okb c s) eqn:O; [|discriminate]. destruct (step c s) as [s1 r|] eqn:Es; [|discriminate].
    replace (cs0 ++ c :: t) with ((cs0 ++ [c]) ++ t) by (rewrite <- app_assoc; reflexivity).
    apply (IH _ s1); [|easy]. apply (reach1 _ cs0 s c s1 r R); [|easy]. apply okb_legal; [|easy]. exact (reach_All nv nu cs0 s Hv Hu R).
Qed.
End Spec.

(* --- what is not so ------------------------------------------------------------------------------------ *)
Definition h0 : lsid -> Z := fun _ => 0.
Definition k_ino : key := KV (mkVaddr 4096 LT_INODE 1024).
Definition k_dat : key := KV (mkVaddr 65536 LT_DATA4K 4096).
Definition k_dat2 : key := KV (mkVaddr (65536 + 4096) LT_DATA4K 4096).
Definition k_leaf : key := KU (mkUaddr (mkLaddr (mkLsid [7] 1048576 0 10 2 LT_SPLEAF) 0 32768) 0).
Definition probe (cs : list call) (P : lcache -> Prop) : Prop :=
  match exec h0 cs (lcache_init 1 1) with Some s => P s | None => False end.
Lemma probe_reach cs P : probe cs P -> exists s, reach h0 (lcache_init 1 1) cs s /\ P s.
Proof.
  unfold probe. destruct (exec h0 cs (lcache_init 1 1)) as [s|] eqn:E; [|easy]. intros H. exists s. split; [|easy].
  exact (exec_reach h0 1 1 ltac:(lia) ltac:(lia) cs [] _ s (reach0 _ _) E).
Qed.
Definition both (s : lcache) (i j : Z) : option (obj * obj) := match view s i, view s j with Some a, Some b => Some (a, b) | _, _ => None end.

(* an object forgotten while it is referenced stays in memory; another copy can be made and both be dirty
   at once, so "at most one copy" holds for what is found only *)
Theorem C31_two_copies_refuted : exists cs s i j a b, reach h0 (lcache_init 1 1) cs s /\ i <> j /\
  view s i = Some a /\ view s j = Some b /\ o_key a = o_key b /\ o_dirty a = true /\ o_dirty b = true /\ o_queue a = o_queue b.
Proof.
  destruct (probe_reach [Create k_dat [true]; Incref 0; ForgetV 0; Create k_dat [true]; DirtifyV 0 None; DirtifyV 1 None]
    (fun s => both s 0 1 = Some (mkObj k_dat false true QVnis 1 false 0, mkObj k_dat true true QVnis 0 false 0))) as (s & R & P).
  { vm_compute. reflexivity. }
  unfold both in P. destruct (view s 0) as [a|] eqn:Ea; [|discriminate]. destruct (view s 1) as [b|] eqn:Eb; [|discriminate].
  assert (a = mkObj k_dat false true QVnis 1 false 0) by congruence. assert (b = mkObj k_dat true true QVnis 0 false 0) by congruence. subst a b.
  eexists _, s, 0, 1, _, _. split; [exact R|]. split; [lia|]. split; [exact Ea|]. split; [exact Eb|]. repeat split.
Qed.
(* when all that is left are forgotten copies, which no one uses any more, none of them is dropped *)
Theorem C31_drop_forgotten_refuted : exists cs s s' r i o, reach h0 (lcache_init 1 1) cs s /\ view s i = Some o /\ may_drop (view s) i o /\
  step h0 Drop s = COk s' r /\ view s' i = Some o.
Proof.
  destruct (probe_reach [Create k_dat [true]; Incref 0; ForgetV 0; Decref 0]
    (fun s => view s 0 = Some (mkObj k_dat false false QVnis 0 false 0) /\ usage_sum s = 0)) as (s & R & P & U).
  { vm_compute. split; reflexivity. }
  eexists _, s, s, None, 0, _. split; [exact R|]. split; [exact P|]. split; [|split; [|exact P]].
  - repeat split; cbn in *; easy.
  - unfold step, unit_of, lcache_drop. cbn [drop_loop]. unfold cbind, cget. rewrite U. reflexivity.
Qed.
(* a creation without a lookup before it, so that the address is in use, gives a second copy which is found *)
Theorem C31_blind_create_refuted : exists cs s s' r i j, reach h0 (lcache_init 1 1) cs s /\ step h0 (Create k_dat [true]) s = COk s' r /\
  i <> j /\ findable (view s') k_dat i /\ findable (view s') k_dat j.
Proof.
  destruct (probe_reach [Create k_dat [true]]
    (fun s => match step h0 (Create k_dat [true]) s with COk s' _ => both s' 0 1 = Some (mkObj k_dat true false QVnis 0 false 0, mkObj k_dat true false QVnis 0 false 0) | CBad => False end))
    as (s & R & P). { vm_compute. reflexivity. }
  destruct (step h0 (Create k_dat [true]) s) as [s' r|] eqn:E; [|easy]. unfold both in P.
  destruct (view s' 0) as [a|] eqn:Ea; [|discriminate]. destruct (view s' 1) as [b|] eqn:Eb; [|discriminate].
  assert (a = mkObj k_dat true false QVnis 0 false 0) by congruence. assert (b = mkObj k_dat true false QVnis 0 false 0) by congruence. subst a b.
  eexists _, s, s', r, 0, 1. split; [exact R|]. split; [exact E|]. split; [lia|]. split; eexists; (split; [eassumption|split; reflexivity]).
Qed.
(* a clean object remembers the queue of an inode which may be gone: marking it dirty without naming an
   inode would write to freed memory (the callers with NULL, lib/inode.c:568, lib/lcache.c:701 and
   lib/execlib.c:1249, have objects in a queue of the cache) *)
Theorem C31_stale_queue_refuted : exists cs s i o, reach h0 (lcache_init 1 1) cs s /\ view s i = Some o /\ is_v (o_key o) /\
  step h0 (DirtifyV i None) s = CBad.
Proof.
  destruct (probe_reach [Create k_ino [true]; Create k_dat [true]; DirtifyV 1 (Some 0); Undirtify 1; ForgetV 0]
    (fun s => view s 1 = Some (mkObj k_dat true false (QIno 0) 0 false 0) /\
              match step h0 (DirtifyV 1 None) s with CBad => True | COk _ _ => False end)) as (s & R & P & B).
  { vm_compute. split; [reflexivity|exact Logic.I]. }
  eexists _, s, 1, _. split; [exact R|]. split; [exact P|]. split; [exact Logic.I|]. destruct (step h0 (DirtifyV 1 None) s); easy.
Qed.

(* --- examples --------------------------------------------------------------------------------------------- *)
(* all objects in one chain with equal hashes: lookups, dirty objects of an inode, an allocation which fails
   twice and drops objects, and what is left *)
Definition story : list call :=
  [Create k_ino [true]; Create k_dat [true]; Create k_leaf [true]; DirtifyU 2; Incref 0; DirtifyV 1 (Some 0); Lookup k_dat;
   Create k_dat2 [true]; Decref 0; Pin 3 true; Undirtify 2; Relax 70 true false false false; Pin 3 false;
   Create k_leaf [false; false; true]; UndirtifyAll 0; Reditify 0].
Definition show (s : lcache) : list (option obj) := map (view s) [0; 1; 2; 3; 4; 5].
Example ex_story : probe story (fun s =>
  show s = [Some (mkObj k_ino true true QIis 0 false 0); Some (mkObj k_dat true false (QIno 0) 0 false 0); None; None;
            Some (mkObj k_leaf true false QUnis 0 false 0); None] /\
  dq_l (lc_q s QIis) = [0] /\ dq_accum (lc_q s QIis) = 1024 /\ dq_l (lc_q s (QIno 0)) = []).
Proof. vm_compute. repeat split. Qed.
Example ex_reach : exists s, reach h0 (lcache_init 1 1) story s.
Proof. destruct (probe_reach _ _ ex_story) as (s & R & _). eauto. Qed.
(* a drop keeps the dirty inode only *)
Example ex_drop : probe (story ++ [Drop]) (fun s => show s = [Some (mkObj k_ino true true QIis 0 false 0); None; None; None; None; None]).
Proof. vm_compute. reflexivity. Qed.

Print Assumptions C31_history.
Print Assumptions C31_lookup.
Print Assumptions C31_kept.
Print Assumptions C31_drop_all.
Print Assumptions C31_two_copies_refuted.
Print Assumptions C31_drop_forgotten_refuted.
Print Assumptions C31_blind_create_refuted.
Print Assumptions C31_stale_queue_refuted.
