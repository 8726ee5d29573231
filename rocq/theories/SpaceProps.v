(* C17 (the allocator never hands out space in use), C18 (a shared block is released by its last
   owner only), C19 (fresh space is marked unwritten), C20 (used-space counters are exact), C22
   (statistics agree with the live objects).

   A history starts from a formatted volume; each step is an operation callers may do (SpaceHist.v:
   legal) with any outcome of every allocation and input/output it makes.  The list L holds one
   entry (kind, offset) per reference a caller owns; w says which objects were written since they
   were claimed.  Both follow from the operations and their results alone.  A history ends when a
   step runs into the undefined behaviour of the free-range cache on exhausted memory (C21); with
   memory available that does not happen (no_ub_with_memory). *)
From Verif Require Import Base AddrModel MapModel SpaModel SpaProofs SpaceModel SpaceBits SpaceLeaf SpaceProofs SpaceOps SpaceHist.
Local Opaque sumn popcount.

(* ---- the specification's terms ---- *)
Definition allocated (s : space) (t v : Z) : bool :=
  match sv_leaf s t (leaf_index v) with Some l => is_allocated_at l t v | None => false end.
Definition unwritten (s : space) (t v : Z) : bool :=
  match sv_leaf s t (leaf_index v) with Some l => test_unwritten_at l t v | None => true end.
Definition aligned (t v : Z) : Prop := 0 <= v /\ v mod ltype_size t = 0.

(* ---- concrete histories, for the examples ---- *)
Definition legalb (L : list (Z * Z)) (op : sop) : bool :=
  let own t v := existsb (fun p => (fst p =? t) && (snd p =? v)) L in
  match op with
  | SClaim t => (LT_INODE <=? t) && (t <=? LT_DATABK)
  | SShare t v => (t =? LT_DATABK) && own t v
  | SRelease t v => own t v
  | SWritten t v | SUnwritten t v => ltype_isdata t && own t v
  | _ => true
  end.
Lemma own_in : forall L t v, existsb (fun p => (fst p =? t) && (snd p =? v)) L = true -> In (t, v) L.
Proof.
  intros L t v H. apply existsb_exists in H. destruct H as [[a b] [H1 H2]]. cbn [fst snd] in H2.
  assert (a = t /\ b = v) as [-> ->] by lia. auto.
Qed.
Lemma legalb_ok : forall L op, legalb L op = true -> legal L op.
Proof.
  intros L op H. destruct op; cbn [legalb legal] in *; auto.
  - unfold isv. lia.
  - apply andb_prop in H. destruct H as [H1 H2]. split; [lia|]. apply own_in; auto.
  - apply own_in; auto.
  - apply andb_prop in H. destruct H as [H1 H2]. split; [auto|]. apply own_in; auto.
  - apply andb_prop in H. destruct H as [H1 H2]. split; [auto|]. apply own_in; auto.
Qed.
Definition start (cap : Z) := (formatted cap, @nil (Z * Z), (fun _ _ : Z => false)).
Definition run1 (x : space * list (Z * Z) * (Z -> Z -> bool)) (op : sop) :=
  let '(s, L, w) := x in
  if legalb L op then let '(s', r) := sstep s op [] in (s', lnext L op r, wnext w op r) else (s, L, w).
Definition run (cap : Z) (ops : list sop) := fold_left run1 ops (start cap).
Lemma run_hist : forall cap ops, let '(s, L, w) := run cap ops in hist cap s L w.
Proof.
  intros cap ops. unfold run. assert (H : let '(s, L, w) := start cap in hist cap s L w) by apply HFormat.
  generalize dependent (start cap). induction ops as [|op ops IH]; intros [[s L] w] H; [exact H|].
  cbn [fold_left]. apply IH. unfold run1. destruct (legalb L op) eqn:E; [|exact H].
  pose proof (calm_step s op [] (Forall_nil _)) as C. destruct (sstep s op []) as [s' r] eqn:Es.
  apply HStep with (s := s) (o := []); auto. apply legalb_ok; auto.
Qed.

(* ---- C17 ---- *)
Theorem claim_gives_free_space : forall cap s L w t o s' v,
  hist cap s L w -> isv t -> sstep s (SClaim t) o = (s', Ok (Some v)) ->
  aligned t v /\ v + ltype_size t <= VSPACE_END /\
  (forall v', In (t, v') L -> v + ltype_size t <= v' \/ v' + ltype_size t <= v).
Proof.
  intros cap s L w t o s' v H Ht E. apply hist_inv in H. cbn [sstep] in E.
  pose proof (tri_claim _ _ _ t Ht s o H) as T. destruct (claim t s o) as [[s1 o1] r]. destruct r as [x| | |]; try discriminate.
  injection E as <- <-. destruct T as [_ [T1 [T2 [T3 T4]]]]. split; [split; auto|]. split; [exact T4|].
  intros v' Hi. apply owners_pos in Hi. destruct (ref_facts _ _ _ s t v' H Hi) as [_ [V1 [V2 _]]].
  assert (v' <> x) by (intros ->; lia). change (ltype_size t) with (usz t). pose proof (usz_pos t Ht) as [Up _].
  apply Z.mod_divide in V2; [|lia]. apply Z.mod_divide in T3; [|lia]. destruct V2 as [a ->]. destruct T3 as [b ->].
  assert (a < b \/ b < a) as [|] by nia; [right|left]; nia.
Qed.
(* live objects of one kind never overlap *)
Theorem live_objects_apart : forall cap s L w t v v',
  hist cap s L w -> In (t, v) L -> In (t, v') L -> v <> v' ->
  v + ltype_size t <= v' \/ v' + ltype_size t <= v.
Proof.
  intros cap s L w t v v' H Hi Hi' Hn. apply hist_inv in H. apply owners_pos in Hi. apply owners_pos in Hi'.
  destruct (ref_facts _ _ _ s t v H Hi) as [Ht [V1 [V2 _]]]. destruct (ref_facts _ _ _ s t v' H Hi') as [_ [W1 [W2 _]]].
  change (ltype_size t) with (usz t). pose proof (usz_pos t Ht) as [Up _].
  apply Z.mod_divide in V2; [|lia]. apply Z.mod_divide in W2; [|lia]. destruct V2 as [a ->]. destruct W2 as [b ->].
  assert (a < b \/ b < a) as [|] by nia; [left|right]; nia.
Qed.
Theorem no_ub_with_memory : forall s op o, Forall (eq true) o -> snd (sstep s op o) <> Ub.
Proof. exact calm_step. Qed.

(* three objects, the middle one released and its place used again by the next claim *)
Definition CAP := 2 ^ 31.
Definition ops17 := [SClaim LT_DATA4K; SClaim LT_DATA4K; SClaim LT_DATA4K; SRelease LT_DATA4K 4096; SClaim LT_INODE].
Example claim_example :
  snd (fst (run CAP ops17)) = [(LT_INODE, 0); (LT_DATA4K, 8192); (LT_DATA4K, 0)] /\
  snd (sstep (fst (fst (run CAP ops17))) (SClaim LT_DATA4K) []) = Ok (Some 4096) /\
  snd (sstep (fst (fst (run CAP ops17))) (SClaim LT_DATABK) [true; true; false]) = Fail.
Proof. vm_compute. auto. Qed.
Print Assumptions claim_gives_free_space.

(* ---- C18 ---- *)
Theorem allocated_iff_owned : forall cap s L w t v, hist cap s L w -> isv t -> aligned t v ->
  (allocated s t v = true <-> In (t, v) L).
Proof.
  intros cap s L w t v H Ht [Hv Ha]. apply hist_inv in H. rewrite owners_pos. unfold allocated.
  destruct (sv_leaf s t (leaf_index v)) as [l|] eqn:El.
  - rewrite (test_allocated (owners L) w t v l Ht Hv Ha (leaf_of _ _ _ s t v l H Ht El)). lia.
  - split; [discriminate|]. intros Hp. destruct (ref_facts _ _ _ s t v H Hp) as [_ [_ [_ [_ [l Hl]]]]]. congruence.
Qed.
(* the reference count of a shared block is the number of its owners *)
Theorem owner_count_exact : forall cap s L w v l, hist cap s L w -> aligned LT_DATABK v ->
  sv_leaf s LT_DATABK (leaf_index v) = Some l -> dbkref_at l LT_DATABK v = owners L LT_DATABK v.
Proof.
  intros cap s L w v l H [Hv Ha] El. apply hist_inv in H. assert (Ht : isv LT_DATABK) by (unfold isv; cbv; split; discriminate).
  pose proof (leaf_of _ _ _ s _ v l H Ht El) as HL.
  destruct (leaf_slot_inv _ _ _ _ _ Ht Hv Ha HL) as [_ [_ [_ [_ E]]]].
  unfold dbkref_at. change (isdatabk LT_DATABK) with true in *. cbv iota in *. rewrite E.
  rewrite addr_databk by (auto; lia). reflexivity.
Qed.
(* a release by one of several owners leaves the block allocated; the last one frees it, and the
   place is what the next claim gets (while the stack of recently freed places has room) *)
Theorem release_keeps_shared : forall cap s L w t v o s' r, hist cap s L w -> In (t, v) L ->
  sstep s (SRelease t v) o = (s', r) -> r <> Ub -> In (t, v) (remove1 (t, v) L) -> allocated s' t v = true.
Proof.
  intros cap s L w t v o s' r H Hi E Hu Hr. pose proof (hist_inv _ _ _ _ H) as HI. pose proof (proj1 (owners_pos L t v) Hi) as Hp.
  destruct (ref_facts _ _ _ s t v HI Hp) as [Ht [V1 [V2 _]]].
  pose proof (HStep cap s L w (SRelease t v) o s' r H Hi E Hu) as H'.
  apply (allocated_iff_owned cap s' _ _ t v H' Ht (conj V1 V2)). cbn [lnext]. destruct r; auto.
Qed.
Theorem last_release_frees : forall cap s L w t v o s' x, hist cap s L w -> In (t, v) L ->
  sstep s (SRelease t v) o = (s', Ok x) -> ~ In (t, v) (remove1 (t, v) L) ->
  allocated s' t v = false /\
  (zlen (sp_lifo (sv_cache s t)) < LIFO_MAX -> forall o' s2 v', sstep s' (SClaim t) o' = (s2, Ok (Some v')) -> v' = v).
Proof.
  intros cap s L w t v o s' x H Hi E Hr. pose proof (hist_inv _ _ _ _ H) as HI. pose proof (proj1 (owners_pos L t v) Hi) as Hp.
  destruct (ref_facts _ _ _ s t v HI Hp) as [Ht [V1 [V2 [V3 V4]]]].
  assert (NU : Ok x <> Ub) by discriminate.
  pose proof (HStep cap s L w (SRelease t v) o s' (Ok x) H Hi E NU) as H'. cbn [lnext] in H'. split.
  - destruct (allocated s' t v) eqn:A; auto. apply (allocated_iff_owned cap s' _ _ t v H' Ht (conj V1 V2)) in A. contradiction.
  - intros Hl o' s2 v' C.
    assert (Hr1 : owners L t v = 1).
    { assert (~ 0 < owners (remove1 (t, v) L) t v) by (rewrite <- owners_pos; auto).
      rewrite owners_remove, at1_same in H0 by auto. lia. }
    (* the cache after the release *)
    assert (PC : exists m, sv_cache s' t = with_lifo m (v :: sp_lifo m) /\ sp_ulen m = usz t).
    { cbn [sstep] in E. unfold reclaim in E.
      set (P := fun s1 => hinv s1 L w /\ has_leaf t v s1 /\ sv_cache s1 t = sv_cache s t).
      assert (VP : viewp P).
      { intros a b V [P1 [P2 P3]]. split; [apply inv_view with (s := a); auto|]. split; [apply has_leaf_view with (s := a); auto|].
        destruct V as [_ [V' _]]. rewrite V' by auto. auto. }
      assert (TR : tri (fun _ => True) P (reclaim t v) (fun _ s1 => sv_cache s1 t = with_lifo (sv_cache s t) (v :: sp_lifo (sv_cache s t)))).
      { unfold reclaim. eapply tri_bind; [apply tri_spmaps_there; [exact VP|auto|intros a [_ [A _]]; exact A]|]. intros ?.
        eapply tri_bind; [apply tri_may_fail; auto|]. intros ?. apply tri_with_leaf; [auto|]. intros s0 l [P1 [P2 P3]] El.
        pose proof (leaf_of _ _ _ s0 t v l P1 Ht El) as HL.
        destruct (unref_inv (owners L) w t v l Ht V1 V2 Hp V3 HL) as [_ UD].
        eapply tri_bind with (Q := fun _ s1 => sv_cache s1 t = sv_cache s t); [apply tri_put; intros z ->; exact P3|]. intros _.
        rewrite UD, Hr1. cbn [Z.sub Z.ltb Z.compare Z.add Z.opp Z.pos_sub].
        eapply tri_bind with (Q := fun _ s1 => sv_cache s1 t = sv_cache s t); [apply tri_put; intros z Hz; exact Hz|]. intros _.
        intros z oz Hz. unfold cache_store, bind, tick.
        assert (LA : spalifo_add (sv_cache z t) v (ltype_size t) = Some (with_lifo (sv_cache s t) (v :: sp_lifo (sv_cache s t)))).
        { rewrite Hz. unfold spalifo_add. destruct HI as [_ [_ [I3 _]]]. destruct (I3 t Ht) as [_ [[M1 _] _]].
          rewrite M1. change (ltype_size t) with (usz t). rewrite Z.eqb_refl. destruct (Z.ltb_spec (zlen (sp_lifo (sv_cache s t))) LIFO_MAX); [reflexivity|lia]. }
        unfold spamap_add. rewrite LA. cbn [set_cache sv_cache]. apply fset_same. }
      specialize (TR s o (conj HI (conj V4 eq_refl))). unfold reclaim in TR.
      destruct (bind (require_spmaps t v) _ s o) as [[s1 o1] r1]. destruct r1; try discriminate. injection E as <- _.
      exists (sv_cache s t). split; [exact TR|]. destruct HI as [_ [_ [I3 _]]]. destruct (I3 t Ht) as [_ [[M1 _] _]]. exact M1. }
    destruct PC as [m [PC PU]].
    (* the claim pops it *)
    cbn [sstep] in C. unfold claim in C.
    assert (TC : tri (fun _ => True) (fun s1 => sv_cache s1 t = with_lifo m (v :: sp_lifo m)) (claim t) (fun y _ => y = v)).
    { unfold claim. eapply tri_bind with (Q := fun _ s1 => sv_cache s1 t = with_lifo m (v :: sp_lifo m)).
      { unfold check_avail. apply tri_get. intros a Ha. destruct (_ && _); [apply tri_ret|apply tri_stop; auto]. intros b ->. exact Ha. }
      intros _. eapply tri_bind with (Q := fun y _ => y = v).
      { intros a oa Ha. unfold require_unalloc, bind, cache_pop, spamap_pop, spalifo_pop. rewrite Ha. cbn [with_lifo sp_lifo sp_ulen].
        rewrite PU. change (ltype_size t) with (usz t). rewrite Z.eqb_refl. reflexivity. }
      intros y. apply tri_pre with (P' := fun _ => y = v); [auto|].
      assert (TT : forall A (k : M A), tri (fun _ => True) (fun _ => y = v) k (fun _ _ => y = v)).
      { intros A k a oa Hy. destruct (k a oa) as [[a' o1] r1]. destruct r1; auto. }
      eapply tri_bind; [apply TT|intros ?]. eapply tri_bind; [apply TT|intros ?]. eapply tri_bind; [apply TT|intros ?].
      eapply tri_bind; [apply TT|intros ?]. apply tri_ret. auto. }
    specialize (TC s' o' PC). unfold claim in TC. destruct (bind (check_avail t) _ s' o') as [[s3 o3] r3].
    destruct r3; try discriminate. injection C as <- <-. exact TC.
Qed.
(* one block owned three times: two releases keep it, the third frees it *)
Definition ops18 := [SClaim LT_DATABK; SShare LT_DATABK 0; SShare LT_DATABK 0; SDrop; SClaim LT_DATABK; SRelease LT_DATABK 0].
Example share_example :
  let '(s, L, w) := run CAP ops18 in
  L = [(LT_DATABK, 65536); (LT_DATABK, 0); (LT_DATABK, 0)] /\ allocated s LT_DATABK 0 = true /\
  let '(s, L, w) := run CAP (ops18 ++ [SRelease LT_DATABK 0]) in
  L = [(LT_DATABK, 65536); (LT_DATABK, 0)] /\ allocated s LT_DATABK 0 = true /\
  let '(s, L, w) := run CAP (ops18 ++ [SRelease LT_DATABK 0; SRelease LT_DATABK 0]) in
  L = [(LT_DATABK, 65536)] /\ allocated s LT_DATABK 0 = false /\ snd (sstep s (SClaim LT_DATABK) []) = Ok (Some 0).
Proof. vm_compute. repeat split. Qed.
Print Assumptions allocated_iff_owned.
Print Assumptions last_release_frees.

(* ---- C19, the part of the allocator: data space reports unwritten exactly until it is written,
   whatever happened to the place before and to others since ---- *)
Theorem unwritten_until_written : forall cap s L w t v, hist cap s L w -> In (t, v) L -> ltype_isdata t = true ->
  unwritten s t v = negb (w t v).
Proof.
  intros cap s L w t v H Hi Hd. apply hist_inv in H. apply owners_pos in Hi.
  destruct (ref_facts _ _ _ s t v H Hi) as [Ht [V1 [V2 [V3 [l Hl]]]]]. unfold unwritten. rewrite Hl.
  apply (test_unwritten (owners L) w t v l Ht V1 V2 Hi Hd (leaf_of _ _ _ s t v l H Ht Hl)).
Qed.
Theorem fresh_is_unwritten : forall cap s L w t o s' v, hist cap s L w -> isv t -> ltype_isdata t = true ->
  sstep s (SClaim t) o = (s', Ok (Some v)) -> unwritten s' t v = true.
Proof.
  intros cap s L w t o s' v H Ht Hd E.
  pose proof (HStep cap s L w (SClaim t) o s' _ H Ht E ltac:(discriminate)) as H'. cbn [lnext wnext] in H'.
  rewrite (unwritten_until_written cap s' _ _ t v H'); auto; [|left; reflexivity]. rewrite at1_same. reflexivity.
Qed.
(* a written object, released; its place is claimed again and is unwritten; its neighbour in the
   same block keeps its state *)
Definition ops19 := [SClaim LT_DATA1K; SClaim LT_DATA1K; SWritten LT_DATA1K 0; SWritten LT_DATA1K 1024;
                     SRelease LT_DATA1K 0; SReopen true; SClaim LT_DATA1K].
Example unwritten_example :
  let '(s, L, w) := run CAP ops19 in
  L = [(LT_DATA1K, 0); (LT_DATA1K, 1024)] /\ unwritten s LT_DATA1K 0 = true /\ unwritten s LT_DATA1K 1024 = false.
Proof. vm_compute. repeat split. Qed.
Print Assumptions unwritten_until_written.

(* ---- C20 ---- *)
Theorem used_bytes_exact : forall cap s L w t i l, hist cap s L w -> isv t -> sv_leaf s t i = Some l ->
  sl_nused l = ltype_size t * zlen (live_in L t i) /\ sl_nused l = sum_nbytes_used l.
Proof.
  intros cap s L w t i l H Ht Hl. apply hist_inv in H. pose proof H as [_ [I2 _]]. destruct (I2 t i l Ht Hl) as [J HL].
  split; [|apply HL]. apply (leaf_count (owners L) w L t i); auto; [lia|].
  intros v Hi. apply owners_pos in Hi. destruct (ref_facts _ _ _ s t v H Hi) as [_ [V1 [V2 _]]]. auto.
Qed.
Theorem used_bytes_zero : forall cap s w t i l, hist cap s [] w -> isv t -> sv_leaf s t i = Some l -> sl_nused l = 0.
Proof. intros cap s w t i l H Ht Hl. destruct (used_bytes_exact cap s [] w t i l H Ht Hl) as [-> _]. cbn. lia. Qed.
Example used_example :
  let '(s, L, w) := run CAP ops18 in
  option_map sl_nused (sv_leaf s LT_DATABK 0) = Some 131072 /\ zlen (live_in L LT_DATABK 0) = 2.
Proof. vm_compute. auto. Qed.
Print Assumptions used_bytes_exact.

(* ---- C22 ---- *)
Theorem object_counters_exact : forall cap s L w t, hist cap s L w -> isv t -> objs s t = zlen (live_of L t).
Proof. intros cap s L w t H Ht. apply hist_inv in H. destruct H as [_ [_ [_ I4]]]. apply I4; auto. Qed.
Theorem gauge_round_trip : forall k, - 2 ^ 63 < k < 2 ^ 63 -> gauge_to_cpu (cpu_to_gauge k) = k.
Proof.
  intros k H. unfold cpu_to_gauge, gauge_to_cpu.
  assert (T : forall x, 0 <= x < 2 ^ 63 -> Z.testbit x 63 = false).
  { intros x Hx. destruct (Z.eq_dec x 0) as [->|]; [reflexivity|]. apply Z.bits_above_log2; [lia|]. apply Z.log2_lt_pow2; lia. }
  assert (D : forall x, 0 <= x < 2 ^ 63 -> Z.ldiff x (2 ^ 63) = x).
  { intros x Hx. apply Z.bits_inj. intros n. rewrite Z.ldiff_spec. destruct (Z.eq_dec n 63) as [->|Hn].
    - rewrite (T x Hx). reflexivity.
    - rewrite Z.pow2_bits_false by auto. apply andb_true_r. }
  destruct (Z.ltb_spec k 0) as [Hk|Hk].
  - assert (U : u64 (- k) = - k) by (unfold u64; apply Z.mod_small; lia). rewrite U.
    rewrite Z.lor_spec, Z.pow2_bits_true by lia. rewrite orb_true_r.
    replace (Z.ldiff (Z.lor (- k) (2 ^ 63)) (2 ^ 63)) with (- k); [lia|].
    apply Z.bits_inj. intros n. rewrite Z.ldiff_spec, Z.lor_spec. destruct (Z.eq_dec n 63) as [->|Hn].
    + rewrite (T (- k)) by lia. rewrite Z.pow2_bits_true by lia. reflexivity.
    + rewrite Z.pow2_bits_false by auto. rewrite orb_false_r, andb_true_r. reflexivity.
  - assert (U : u64 k = k) by (unfold u64; apply Z.mod_small; lia). rewrite U. rewrite (T k) by lia. apply D. lia.
Qed.
Definition used_sum (s : space) : Z := zsum (map (fun t => objs s t * ltype_size t) GAUGED).
Theorem free_space_when_within : forall s, 0 <= used_sum s <= sv_cap s -> sv_cap s < 2 ^ 64 ->
  let '(blocks, bfree, _, _) := statvfs s in bfree = (sv_cap s - used_sum s) / 4096 /\ bfree <= blocks.
Proof.
  intros s H Hc. unfold statvfs, bytes_used. fold (used_sum s).
  assert (U1 : u64 (used_sum s) = used_sum s) by (unfold u64; apply Z.mod_small; lia). rewrite U1.
  assert (U2 : u64 (sv_cap s - used_sum s) = sv_cap s - used_sum s) by (unfold u64; apply Z.mod_small; lia). rewrite U2.
  split; [reflexivity|]. apply Z.div_le_mono; lia.
Qed.
(* Snapshots are not charged against the capacity (only claims are: lib/claim.c:314-331), so the
   used bytes can pass it, and the unsigned difference wraps around. *)
Fixpoint forks (n : nat) (s : space) : space := match n with O => s | S k => fork (forks k s) end.
Lemma forks_hist : forall cap n s L w, hist cap s L w -> hist cap (forks n s) L w.
Proof.
  intros cap n s L w H. induction n; [exact H|]. cbn [forks].
  apply (HStep cap (forks n s) L w SFork [] (fork (forks n s)) (Ok None) IHn Logic.I eq_refl). discriminate.
Qed.
Lemma forks_objs : forall n s t, objs (forks n s) t = objs s t + (if t =? LT_SUPER then Z.of_nat n else 0).
Proof.
  induction n; intros s t; [cbn; destruct (_ =? _); lia|]. cbn [forks]. specialize (IHn s t).
  unfold fork. set (s1 := mkSpace _ _ _ _ _ _ _ _ _). assert (E : objs s1 t = objs (forks n s) t) by (unfold s1, objs; cbn; lia).
  destruct (Z.eqb_spec t LT_SUPER) as [Ht|Hn]; [rewrite Ht in *; rewrite objs_add_same|rewrite objs_add_other by auto]; rewrite E, IHn; lia.
Qed.
Lemma forks_cap : forall n s, sv_cap (forks n s) = sv_cap s.
Proof. induction n; intros s; [reflexivity|]. cbn [forks]. unfold fork. cbn. apply IHn. Qed.
Lemma statvfs_eq : forall s, statvfs s =
  (sv_cap s / 4096, u64 (sv_cap s - u64 (used_sum s)) / 4096, inodes_max s, u64 (inodes_max s - objs s LT_INODE)).
Proof. reflexivity. Qed.
Theorem free_within_capacity_refuted : exists cap s L w, hist cap s L w /\
  let '(blocks, bfree, _, _) := statvfs s in blocks < bfree.
Proof.
  set (n := Z.to_nat 262144). exists CAP, (forks n (formatted CAP)), [], (fun _ _ => false).
  split; [apply forks_hist, HFormat|].
  assert (U : used_sum (forks n (formatted CAP)) = 262145 * 8192).
  { unfold used_sum, GAUGED. cbn [map zsum]. rewrite !forks_objs.
    assert (Hn : Z.of_nat n = 262144) by (unfold n; apply Z2Nat.id; lia). clearbody n. rewrite Hn. reflexivity. }
  rewrite statvfs_eq, U, forks_cap. clearbody n. reflexivity.
Qed.
(* The block counter of a kind goes up when the first object of a block is claimed and never goes
   down. *)
Theorem block_counters_return_refuted : exists cap s s' w w',
  hist cap s [] w /\ hist cap s' [] w' /\
  (exists s1, sstep s (SClaim LT_INODE) [] = (s1, Ok (Some 0)) /\ sstep s1 (SRelease LT_INODE 0) [] = (s', Ok None)) /\
  bks s LT_INODE <> bks s' LT_INODE.
Proof.
  exists CAP, (fst (fst (run CAP []))), (fst (fst (run CAP [SClaim LT_INODE; SRelease LT_INODE 0]))), (snd (run CAP [])),
    (snd (run CAP [SClaim LT_INODE; SRelease LT_INODE 0])).
  split; [exact (run_hist CAP [])|]. split.
  { pose proof (run_hist CAP [SClaim LT_INODE; SRelease LT_INODE 0]) as R.
    assert (E : snd (fst (run CAP [SClaim LT_INODE; SRelease LT_INODE 0])) = []) by (vm_compute; reflexivity).
    destruct (run CAP [SClaim LT_INODE; SRelease LT_INODE 0]) as [[s L] w]. cbn [fst snd] in *. subst L. exact R. }
  split.
  - exists (fst (sstep (formatted CAP) (SClaim LT_INODE) [])). split; vm_compute; reflexivity.
  - vm_compute. discriminate.
Qed.
Example counters_example :
  let '(s, L, w) := run CAP ops17 in objs s LT_DATA4K = 2 /\ objs s LT_INODE = 1 /\ objs s LT_SPLEAF = 2 /\ objs s LT_SPNODE = 8.
Proof. vm_compute. repeat split. Qed.
Print Assumptions object_counters_exact.
Print Assumptions free_within_capacity_refuted.
Print Assumptions block_counters_return_refuted.
