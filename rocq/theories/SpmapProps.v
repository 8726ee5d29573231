(* The space-map tree leads every offset to its own leaf (C39). *)
From Verif Require Import Base AddrModel MapModel SpmapModel SpmapProofs.

(* the largest volume: 64T; the bound below is larger than any offset in it *)
Definition MAX_VOFF := 2 ^ 55.
Example volume_below_bound : 64 * 2 ^ 40 < MAX_VOFF. Proof. reflexivity. Qed.
(* bytes covered by a map of each height: leaf 16M, then 4G, 1T, 256T, 64P *)
Definition covered (h : Z) : Z := 2 ^ 24 * 256 ^ (h - 2).

Lemma hgt_of : forall h, 2 <= h <= 6 -> exists n, h = hgt n /\ (n <= 4)%nat /\ spn n = covered h /\ (3 <= h -> exists k, n = S k).
Proof.
  intros h H. exists (Z.to_nat (h - 2)). unfold hgt, H_SPLEAF, spn, covered.
  rewrite Z2Nat.id by lia. split; [lia|]. split; [lia|]. split; [reflexivity|].
  intros H3. exists (Z.to_nat (h - 3)). lia.
Qed.

(* every offset lies in the range of the map made for it; a range has the size of its level;
   an offset inside a range gets the very same range: ranges of a level do not overlap *)
Theorem spmap_ranges_partition : forall h v w, 2 <= h <= 6 -> 0 <= v -> 0 <= w ->
  let r := vrange_of_spmap h v in
  vr_beg r <= v < vr_end r /\ vr_end r = vr_beg r + covered h /\ vr_len r = covered h /\ vr_height r = h /\
  (vr_beg r <= w < vr_end r -> vrange_of_spmap h w = r).
Proof.
  intros h v w Hh Hv Hw. destruct (hgt_of h Hh) as [n [-> [Hn [Hs _]]]]. cbn zeta.
  rewrite !of_spmap_eq by lia. rewrite <- Hs.
  assert (W : vrange_within (rng n v) v = true) by (apply rng_within; reflexivity).
  unfold vrange_within in W. apply andb_true_iff in W. rewrite Z.leb_le, Z.ltb_lt in W.
  split; [exact W|]. split; [reflexivity|]. split; [reflexivity|]. split; [reflexivity|].
  intros B.
  assert (E : vrange_within (rng n v) w = true)
    by (unfold vrange_within; rewrite andb_true_iff, Z.leb_le, Z.ltb_lt; exact B).
  apply rng_within in E. unfold rng. rewrite E. reflexivity.
Qed.
Example spmap_ranges_partition_ex :
  vrange_of_spmap 3 (2 ^ 32 + 12345) = mkVrange (2 ^ 32) (2 ^ 33) (2 ^ 32) 3 /\
  vrange_of_spmap 2 (2 ^ 32 + 12345) = mkVrange (2 ^ 32) (2 ^ 32 + 2 ^ 24) (2 ^ 24) 2.
Proof. split; reflexivity. Qed.
Print Assumptions spmap_ranges_partition.

(* one step down: for every offset within a node there is a slot below 256, and the range of
   the child is the part of the node's range with that number *)
Theorem spmap_child_of_slot : forall h v w, 3 <= h <= 6 -> 0 <= v < MAX_VOFF -> 0 <= w < MAX_VOFF ->
  let r := vrange_of_spmap h v in let c := vrange_of_spmap (h - 1) w in
  vr_beg r <= w < vr_end r ->
  exists s, slot_of r w = Some s /\ 0 <= s < 256 /\
    vr_beg c = vr_beg r + s * covered (h - 1) /\ vr_end c = vr_beg c + covered (h - 1) /\
    vr_beg r <= vr_beg c /\ vr_end c <= vr_end r /\
    base_voff_of_child r w = vr_beg c /\ vrange_voff_at r s = vr_beg c.
Proof.
  unfold MAX_VOFF. intros h v w Hh Hv Hw. destruct (hgt_of h ltac:(lia)) as [m [-> [Hn [_ K]]]].
  destruct (K ltac:(lia)) as [n ->]. destruct (hgt_of (hgt (S n) - 1) ltac:(lia)) as [m' [Em [_ [Hs _]]]].
  rewrite hgt_S in Em. assert (m' = n) by (unfold hgt in Em; lia). subst m'. cbn zeta. rewrite <- Hs. clear Hs.
  rewrite hgt_S. rewrite !of_spmap_eq by lia. intros B.
  assert (E : vrange_within (rng (S n) v) w = true)
    by (unfold vrange_within; rewrite andb_true_iff, Z.leb_le, Z.ltb_lt; exact B).
  apply rng_within in E.
  exists ((w / spn n) mod 256). split; [apply slot_eq; lia|].
  pose proof (Z.mod_pos_bound (w / spn n) 256 ltac:(lia)) as M. split; [exact M|].
  pose proof (idx_split n w) as I. pose proof (spn_pos n) as P. pose proof (spn_S n) as S1.
  assert (D : w / spn n * spn n = v / spn (S n) * spn (S n) + (w / spn n) mod 256 * spn n).
  { rewrite <- E. rewrite <- I at 1. rewrite S1. ring. }
  unfold base_voff_of_child, vrange_voff_at, rng. cbn [vr_beg vr_end vr_height]. rewrite hgt_S.
  rewrite of_spmap_eq by lia. rewrite span_hgt by lia. unfold rng. cbn [vr_beg].
  split; [exact D|]. split; [reflexivity|].
  split; [rewrite D; clear - M P; nia|].
  split; [rewrite D; generalize (v / spn (S n) * spn (S n)); intros z; rewrite S1; clear - M P; nia|]. split; [reflexivity|].
  rewrite <- D. assert (0 <= w / spn n) by (apply Z.div_pos; lia).
  rewrite align_eq by (clear - H P; nia). rewrite Z.div_mul by lia. reflexivity.
Qed.
Example spmap_child_of_slot_ex :
  slot_of (vrange_of_spmap 6 0) (64 * 2 ^ 40 - 1) = Some 0 /\
  slot_of (vrange_of_spmap 5 0) (64 * 2 ^ 40 - 1) = Some 63 /\
  slot_of (vrange_of_spmap 4 (64 * 2 ^ 40 - 1)) (64 * 2 ^ 40 - 1) = Some 255.
Proof. repeat split; vm_compute; reflexivity. Qed.
Print Assumptions spmap_child_of_slot.

(* siblings: two offsets within a node share a slot only when they share the child; the places
   of two children in the segment of the node (32K each, within 8M) do not overlap *)
Theorem spmap_siblings_apart : forall h u v w p q, 3 <= h <= 6 ->
  0 <= u < MAX_VOFF -> 0 <= v < MAX_VOFF -> 0 <= w < MAX_VOFF ->
  let r := vrange_of_spmap h u in
  vr_beg r <= v < vr_end r -> vr_beg r <= w < vr_end r ->
  bpos_of_child r v = Some p -> bpos_of_child r w = Some q ->
  0 <= p /\ p + 32768 <= 8388608 /\
  ((vrange_of_spmap (h - 1) v = vrange_of_spmap (h - 1) w /\ p = q) \/
   ((vr_end (vrange_of_spmap (h - 1) v) <= vr_beg (vrange_of_spmap (h - 1) w) \/
     vr_end (vrange_of_spmap (h - 1) w) <= vr_beg (vrange_of_spmap (h - 1) v)) /\
    (p + 32768 <= q \/ q + 32768 <= p))).
Proof.
  intros h u v w p q Hh Hu Hv Hw r Bv Bw Ev Ew. subst r.
  destruct (spmap_child_of_slot h u v Hh Hu Hv Bv) as [s [S1 [S2 [S3 [S4 _]]]]].
  destruct (spmap_child_of_slot h u w Hh Hu Hw Bw) as [t [T1 [T2 [T3 [T4 _]]]]].
  unfold bpos_of_child in *. rewrite S1 in Ev. rewrite T1 in Ew. injection Ev as <-. injection Ew as <-.
  change SPMAP_SIZE with 32768. split; [lia|]. split; [lia|].
  assert (P : 0 < covered (h - 1)) by (unfold covered; apply Z.mul_pos_pos; [lia|]; apply Z.pow_pos_nonneg; lia).
  destruct (Z.eq_dec s t) as [->|N].
  - left. split; [|reflexivity].
    symmetry. apply spmap_ranges_partition; [lia|unfold MAX_VOFF in *; lia|unfold MAX_VOFF in *; lia|].
    destruct (spmap_ranges_partition (h - 1) w w ltac:(lia) ltac:(lia) ltac:(lia)) as [X _]. cbn zeta in X. rewrite S4, S3, <- T3, <- T4. exact X.
  - right. split; [|lia].
    rewrite S4, T4, S3, T3. generalize dependent (covered (h - 1)). clear - N. intros k _ _ _ _ P.
    destruct (Z_lt_le_dec s t); [left|right]; nia.
Qed.
Example spmap_siblings_apart_ex :
  bpos_of_child (vrange_of_spmap 3 0) (2 ^ 24) = Some 32768 /\
  bpos_of_child (vrange_of_spmap 3 0) (2 ^ 32 - 1) = Some (255 * 32768).
Proof. split; reflexivity. Qed.
Print Assumptions spmap_siblings_apart.

(* the range a map holds on disk is the one it was made with *)
Theorem spmap_header_roundtrip : forall h v, 2 <= h <= 6 -> 0 <= v < 2 ^ 58 ->
  exists b, vrange128_htox (vrange_of_spmap h v) = Some b /\ zlen b = 16 /\
            vrange128_xtoh b = Some (vrange_of_spmap h v).
Proof.
  intros h v Hh Hv. destruct (hgt_of h Hh) as [n [-> [Hn _]]].
  rewrite of_spmap_eq by lia. apply htox_ok; assumption.
Qed.
Example spmap_header_roundtrip_ex :
  vrange128_htox (vrange_of_spmap 3 (2 ^ 32)) = Some [0;0;0;0;1;0;0;0;  3;0;0;0;16;0;0;0].
Proof. vm_compute. reflexivity. Qed.
Print Assumptions spmap_header_roundtrip.

(* the whole tree, after any number of offsets were used (each giving a mark to its leaf) *)
Fixpoint use_all (m : smap) (l : list (Z * Z)) : option smap :=
  match l with
  | [] => Some m
  | (v, x) :: r => match require ROOT_N m v x with Some m' => use_all m' r | None => None end
  end.
(* the mark last given to the 16M of an offset *)
Definition last_mark (l : list (Z * Z)) (w : Z) : option Z :=
  fold_left (fun acc p => if fst p / 2 ^ 24 =? w / 2 ^ 24 then Some (snd p) else acc) l None.

Lemma fold_acc : forall w l acc, fold_left (fun acc p => if fst p / 2 ^ 24 =? w / 2 ^ 24 then Some (snd p) else acc) l acc =
  match last_mark l w with Some x => Some x | None => acc end.
Proof.
  unfold last_mark. intros w l. pattern l. apply rev_ind; [reflexivity|].
  intros [v x] r IH acc. rewrite !fold_left_app. cbn [fold_left fst snd].
  rewrite IH. destruct (v / 2 ^ 24 =? w / 2 ^ 24); [reflexivity|]. reflexivity.
Qed.

Lemma use_all_ok : forall l m, wf 4 0 m -> (forall v x, In (v, x) l -> 0 <= v < MAX_VOFF) ->
  exists m', use_all m l = Some m' /\ wf 4 0 m' /\
  forall w, 0 <= w < MAX_VOFF ->
    find m' w = match last_mark l w with Some x => Some (rng 0 w, x) | None => find m w end.
Proof.
  unfold MAX_VOFF. induction l as [|[v x] r IH]; intros m W Hl.
  - exists m. split; [reflexivity|]. split; [exact W|]. reflexivity.
  - cbn [use_all]. assert (Hv : 0 <= v < 2 ^ 55) by (apply (Hl v x); left; reflexivity).
    assert (Top : forall w, 0 <= w < 2 ^ 55 -> w / spn 4 = 0) by (intros; apply Z.div_small; rewrite spn_4; lia).
    destruct (require_ok 4 0 m v x W (le_n 4) Hv (Top v Hv)) as [m1 [R [W1 F1]]].
    change ROOT_N with 4%nat. rewrite R.
    destruct (IH m1 W1) as [m' [U [W' F']]]; [intros v0 x0 Hi; apply (Hl v0 x0); right; exact Hi|].
    exists m'. split; [exact U|]. split; [exact W'|]. intros w Hw. rewrite (F' w Hw).
    unfold last_mark at 2. cbn [fold_left fst snd]. rewrite fold_acc.
    destruct (last_mark r w); [reflexivity|]. rewrite (F1 w Hw (Top w Hw)).
    change (spn 0) with (2 ^ 24). rewrite (Z.eqb_sym (v / 2 ^ 24)).
    destruct (Z.eqb_spec (w / 2 ^ 24) (v / 2 ^ 24)) as [E|E]; [|reflexivity].
    unfold rng. change (spn 0) with (2 ^ 24). rewrite E. reflexivity.
Qed.

(* C39: after any history of use no step is undefined, and the walk from the root leads an
   offset to the one leaf that covers it: the leaf holding the mark last given to its 16M, or
   to nothing when no offset of that 16M was ever used *)
Theorem spmap_leads_to_own_leaf : forall v0 l, 0 <= v0 < MAX_VOFF ->
  (forall v x, In (v, x) l -> 0 <= v < MAX_VOFF) ->
  exists m, use_all (root_new v0) l = Some m /\
  forall w, 0 <= w < MAX_VOFF ->
    match find m w with
    | Some (r, x) => last_mark l w = Some x /\ vr_beg r <= w < vr_end r /\ vr_beg r = w / 2 ^ 24 * 2 ^ 24 /\ vr_len r = 2 ^ 24
    | None => last_mark l w = None
    end.
Proof.
  intros v0 l H0 Hl.
  assert (W0 : wf 4 0 (root_new v0)).
  { unfold root_new. change ROOT_N with 4%nat. unfold MAX_VOFF in *.
    replace 0 with (v0 / spn 4) by (apply Z.div_small; rewrite spn_4; lia).
    apply wf_new; [apply le_n|lia]. }
  destruct (use_all_ok l _ W0 Hl) as [m [U [W F]]]. exists m. split; [exact U|].
  intros w Hw. rewrite (F w Hw).
  destruct (last_mark l w) as [x|].
  - split; [reflexivity|].
    assert (B : vrange_within (rng 0 w) w = true) by (apply rng_within; reflexivity).
    unfold vrange_within in B. rewrite andb_true_iff, Z.leb_le, Z.ltb_lt in B.
    split; [exact B|]. split; reflexivity.
  - unfold root_new. change ROOT_N with 4%nat. rewrite find_new by (unfold MAX_VOFF in *; lia). reflexivity.
Qed.
Example spmap_leads_to_own_leaf_ex :
  match use_all (root_new 0) [(5, 1); (2 ^ 24, 2); (2 ^ 45 + 7, 3)] with
  | Some m => map (fun w => option_map snd (find m w)) [2 ^ 24 - 1; 2 ^ 25 - 1; 2 ^ 25; 2 ^ 45 + 2 ^ 24 - 1; 2 ^ 44]
  | None => []
  end = [Some 1; Some 2; None; Some 3; None].
Proof. vm_compute. reflexivity. Qed.
Print Assumptions spmap_leads_to_own_leaf.

(* the slot of a block within its leaf: one per block of 64K of the range *)
Theorem spleaf_slot_exact : forall v w, 0 <= v -> 0 <= w ->
  vrange_of_spmap H_SPLEAF v = vrange_of_spmap H_SPLEAF w ->
  0 <= leaf_slot v < 256 /\ (leaf_slot v = leaf_slot w <-> v / 65536 = w / 65536).
Proof.
  intros v w Hv Hw E. change H_SPLEAF with (hgt 0) in E. rewrite !of_spmap_eq in E by lia.
  injection E as E _. pose proof (spn_pos 0) as P.
  assert (E' : v / 2 ^ 24 = w / 2 ^ 24) by (change (spn 0) with (2 ^ 24) in E; lia).
  unfold leaf_slot, off_to_lba, off_isnull, NCHILDS, LBK_SIZE.
  destruct (v <? 0) eqn:E1; [lia|]. destruct (w <? 0) eqn:E2; [lia|].
  rewrite !Z.quot_div_nonneg by lia.
  split; [apply Z.mod_pos_bound; lia|].
  assert (forall x, x / 2 ^ 24 = x / 65536 / 256) as D by (intros; rewrite Z.div_div by lia; reflexivity).
  rewrite !D in E'. generalize dependent (v / 65536). generalize dependent (w / 65536). intros a b Hab. lia.
Qed.
Example spleaf_slot_exact_ex : leaf_slot (2 ^ 24 - 1) = 255 /\ leaf_slot (2 ^ 24) = 0.
Proof. split; reflexivity. Qed.
Print Assumptions spleaf_slot_exact.

(* the super block's own range contains every offset of a volume, which its only slot serves *)
Theorem super_covers_volume : forall v, 0 <= v < 2 ^ 56 -> vrange_within sb_vrange v = true /\ sb_slot_of v = 0.
Proof.
  intros v Hv. unfold vrange_within, sb_vrange, sb_slot_of.
  change (vr_beg (vrange_of_spmap H_SUPER 0)) with 0.
  change (vr_end (vrange_of_spmap H_SUPER 0)) with (2 ^ 56).
  change (space_span (H_SUPER - 1)) with (2 ^ 56).
  rewrite Z.quot_div_nonneg by lia. rewrite Z.div_small by lia.
  split; [|reflexivity]. apply andb_true_iff. lia.
Qed.
Example super_covers_volume_ex : vrange_within sb_vrange (64 * 2 ^ 40 - 1) = true. Proof. reflexivity. Qed.
Print Assumptions super_covers_volume.

(* Beyond any volume that can be made (64T) the code does not live up to its own limits: in the
   upper half of the range of the top node the product in spnode_slot_of overflows a signed
   integer, and offsets the address type allows (up to 2^58) are outside the super block's
   range. *)
Theorem spmap_top_half_refuted :
  (exists v, vrange_within (vrange_of_spmap H_SPNODE4 v) v = true /\ slot_of (vrange_of_spmap H_SPNODE4 v) v = None) /\
  (exists v, 0 <= v < 2 ^ 58 /\ vrange_within sb_vrange v = false).
Proof.
  split.
  - exists (2 ^ 55). split; vm_compute; reflexivity.
  - exists (2 ^ 56). split; [lia|reflexivity].
Qed.
Print Assumptions spmap_top_half_refuted.
