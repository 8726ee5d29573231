(* Triples for seeking data or holes, and for discarding ranges *)
From Verif Require Import Base AddrModel FileModel FileTree FileInv FileSpec FileLeaf FileRead FileGrow FileLoops FileOps.

(* no leaf is kept for the offset *)
Definition nodata (W : world) (i x : Z) : Prop := match key_of W i x with None => True | Some q => hold W q = None end.
Lemma nodata_zero : forall W i x, nodata W i x -> content W i x = 0.
Proof. intros W i x H. unfold nodata, content in *. destruct (key_of W i x) as [q|]; [|reflexivity]. unfold kval. rewrite H. reflexivity. Qed.
Definition spec2 (W : world) (m : S2) (Q : Z -> flref -> Prop) (E : Z -> Z -> Prop) : Prop :=
  forall s, s_w s = W -> nof s ->
  match m s with
  | (s', (o, Ok r)) => nof s' /\ s_w s' = W /\ Q o r
  | (s', (o, Err e)) => nof s' /\ s_w s' = W /\ E o e
  | (s', (_, Bad)) => False
  end.
(* found at o: a reference to the leaf, or to a hole *)
Definition found (hole : bool) (W : world) (i off0 end_ o : Z) (r : flref) : Prop :=
  off0 <= o < end_ /\ (exists q, key_of W i o = Some q /\ r = ref_at W i o end_ q /\ (hole = true <-> hold W q = None)) /\
  (hole = false -> forall x, off0 <= x < o -> nodata W i x).
Definition empty_to (hole : bool) (W : world) (i a b : Z) : Prop := hole = false -> forall x, a <= x < b -> nodata W i x.

Section Seek.
Variables (W : world) (i end_ off0 : Z) (hole : bool).
Hypothesis T : tree_inv W.
Hypothesis H0 : 0 <= off0.
Hypothesis Kd : forall x, off0 <= x < end_ -> kind_of (fi_ty2 (w_ino W i)) x = TREE.

Lemma seek_leaves_S : forall f a n slot off, seek_leaves (S f) hole (fi_ty2 (w_ino W i)) a n slot off end_ =
    if slot <? NODE_N
    then let off1 := adv_to off end_ (n_file_pos n slot) in
         if off1 <? end_
         then let r := flref_setup (fi_ty2 (w_ino W i)) (Some a) (child_at n slot) off1 end_ in
              if eqb hole (negb (has_data r)) then (off1, Ok r)
              else seek_leaves f hole (fi_ty2 (w_ino W i)) a n (slot + 1) off1 end_
         else (off1, Err ENOENT)
    else (off, Err ENOENT).
Proof. reflexivity. Qed.
Lemma leaves_seek : forall a n, w_node W a = Some n -> n_height n = 2 -> (forall x, n_beg n <= x < n_end n -> bottom W i x = Some a) ->
  forall f slot off, 0 <= slot <= 1024 -> 1024 - slot <= Z.of_nat f -> off0 <= off <= end_ ->
  off <= n_end n -> off < n_beg n + (slot + 1) * 65536 -> empty_to hole W i off0 (Z.min (Z.max off (n_beg n + slot * 65536)) end_) ->
  match seek_leaves f hole (fi_ty2 (w_ino W i)) a n slot off end_ with
  | (o, Ok r) => found hole W i off0 end_ o r /\ o < n_end n
  | (o, Err e) => e = ENOENT /\ off <= o <= Z.min (n_end n) end_ /\ empty_to hole W i off0 (Z.min (n_end n) end_)
  | (_, Bad) => False
  end.
Proof.
  intros a n Ha H2 B. destruct (ti_shape W T a n Ha) as [_ Sh].
  assert (En : n_end n = n_beg n + 67108864) by (rewrite (sh_end n Sh), H2; reflexivity).
  induction f as [|f IH]; intros slot off Hs Hf Ho Hn Hl Em.
  - cbn [seek_leaves]. assert (slot = 1024) by lia. subst slot. split; [reflexivity|]. split; [lia|].
    intros Hh x Hx. apply (Em Hh). lia.
  - rewrite seek_leaves_S. unfold NODE_N. destruct (slot <? 1024) eqn:Sl.
    2: { assert (slot = 1024) by lia. subst slot. split; [reflexivity|]. split; [lia|]. intros Hh x Hx. apply (Em Hh). lia. }
    rewrite file_pos_spec by (assumption || lia). rewrite H2, sub2. cbv zeta.
    assert (Eo : adv_to off end_ (n_beg n + slot * 65536) = Z.min (Z.max off (n_beg n + slot * 65536)) end_) by (unfold adv_to, off_clamp; lia).
    rewrite Eo. set (o1 := Z.min (Z.max off (n_beg n + slot * 65536)) end_) in *.
    destruct (o1 <? end_) eqn:L1.
    2: { split; [reflexivity|]. split; [lia|]. intros Hh x Hx. apply (Em Hh). lia. }
    assert (Sb : n_beg n + slot * sub_of (n_height n) <= o1 < n_beg n + (slot + 1) * sub_of (n_height n)) by (rewrite H2, sub2; lia).
    destruct (slot_pos n slot o1 Sh ltac:(lia) Sb) as [Ri Es].
    assert (Kx : forall x, off0 <= x < end_ -> n_beg n + slot * 65536 <= x < n_beg n + (slot + 1) * 65536 -> key_of W i x = Some (KN a slot)).
    { intros x Hx Hr. rewrite (key_of_tree W i x a (Kd x Hx)); [|apply B; lia]. f_equal. f_equal.
      rewrite (leaf_slot_spec n x Sh H2) by lia. apply (slot_pos n slot x Sh); [lia|]. rewrite H2, sub2. lia. }
    assert (Hh : hold W (KN a slot) = child_at n slot).
    { cbn [hold]. rewrite Ha, H2. replace ((2 =? 2) && (0 <=? slot) && (slot <? 1024)) with true by lia. reflexivity. }
    assert (Rf : flref_setup (fi_ty2 (w_ino W i)) (Some a) (child_at n slot) o1 end_ = ref_at W i o1 end_ (KN a slot)) by (unfold ref_at; rewrite Hh; reflexivity).
    rewrite Rf. assert (Hd : has_data (ref_at W i o1 end_ (KN a slot)) = match hold W (KN a slot) with Some _ => true | None => false end) by reflexivity.
    rewrite Hd. destruct (eqb hole (negb (match hold W (KN a slot) with Some _ => true | None => false end))) eqn:Q.
    + apply eqb_prop in Q. split; [|lia]. split; [lia|]. split.
      * exists (KN a slot). split; [apply Kx; lia|]. split; [reflexivity|]. destruct (hold W (KN a slot)); cbn [negb] in Q; split; intro; congruence.
      * exact Em.
    + apply eqb_false_iff in Q.
      assert (Ih := IH (slot + 1) o1 ltac:(lia) ltac:(lia) ltac:(lia) ltac:(lia) ltac:(lia)).
      assert (Em' : empty_to hole W i off0 (Z.min (Z.max o1 (n_beg n + (slot + 1) * 65536)) end_)).
      { intros Hf2 x Hx. destruct (Z_lt_dec x o1) as [Lx|Gx]; [apply (Em Hf2); lia|].
        unfold nodata. rewrite Kx by lia. destruct (hold W (KN a slot)); [|reflexivity]. cbn [negb] in Q. congruence. }
      specialize (Ih Em'). destruct (seek_leaves f hole (fi_ty2 (w_ino W i)) a n (slot + 1) o1 end_) as [o [r|e|]]; [exact Ih| |exact Ih].
      destruct Ih as (-> & Ro & X). split; [reflexivity|]. split; [lia|exact X].
Qed.

Lemma seek_slots_S : forall f rec n slot off s, seek_slots (S f) rec i n slot off end_ s =
    if slot <? NODE_N
    then match child_at n slot with
         | None => seek_slots f rec i n (slot + 1) (adv_to off end_ (n_next_pos n slot)) end_ s
         | Some v =>
           match stage_node i (Some v) s with
           | (s1, Ok c) =>
             match rec c off s1 with
             | (s2, (off2, Err e)) =>
               if e =? ENOENT then seek_slots f rec i n (slot + 1) (adv_to off2 end_ (n_next_pos n slot)) end_ s2
               else (s2, (off2, Err e))
             | r => r
             end
           | (s1, Err e) =>
             if e =? ENOENT then seek_slots f rec i n (slot + 1) (adv_to off end_ (n_next_pos n slot)) end_ s1
             else (s1, (off, Err e))
           | (s1, Bad) => (s1, (off, Bad))
           end
         end
    else (s, (off, Err ENOENT)).
Proof. reflexivity. Qed.
(* the outcome of the search below a node *)
Definition below (n : ftn) (off : Z) (m : S2) : Prop :=
  spec2 W m (fun o r => found hole W i off0 end_ o r /\ o < n_end n)
            (fun o e => off <= o <= Z.max off (Z.min (n_end n) end_) /\ (e = ENOENT -> empty_to hole W i off0 (Z.min (n_end n) end_))).
Definition path (d : nat) (a : Z) (n : ftn) : Prop := forall x, n_beg n <= x < n_end n -> bottom W i x = walk d W a x.

Lemma slots_seek : forall d a n rec, w_node W a = Some n -> n_ino n = i -> 3 <= n_height n -> n_height n <= Z.of_nat (S d) + 1 -> path (S d) a n ->
  (forall c m off, w_node W c = Some m -> n_ino m = i -> n_height m <= Z.of_nat d + 1 -> path d c m -> off0 <= off <= end_ ->
     (n_beg m <= off \/ off = end_) -> empty_to hole W i off0 off -> below m off (rec c off)) ->
  forall f slot off, 0 <= slot <= 1024 -> 1024 - slot <= Z.of_nat f -> off0 <= off <= end_ -> off <= n_end n ->
  (n_beg n + slot * sub_of (n_height n) <= off \/ off = end_) -> empty_to hole W i off0 off ->
  below n off (seek_slots f rec i n slot off end_).
Proof.
  intros d a n rec Ha In H3 Hd Pa Rec. destruct (ti_shape W T a n Ha) as [_ Sh]. pose proof (sh_h n Sh) as H5.
  set (z := sub_of (n_height n)) in *. assert (Hz : 65536 <= z) by (apply sub_pos; exact H5).
  assert (En : n_end n = n_beg n + 1024 * z) by (rewrite (sh_end n Sh), span_eq by exact H5; reflexivity).
  induction f as [|f IH]; intros slot off Hs Hf Ho Hn Hb Em s Hw N.
  - cbn [seek_slots]. assert (slot = 1024) by lia. subst slot. split; [exact N|]. split; [exact Hw|]. split; [lia|]. intros _.
    intros Hh x Hx. apply (Em Hh). lia.
  - rewrite seek_slots_S. unfold NODE_N. destruct (slot <? 1024) eqn:Sl.
    2: { assert (slot = 1024) by lia. subst slot. split; [exact N|]. split; [exact Hw|]. split; [lia|]. intros _. intros Hh x Hx. apply (Em Hh). lia. }
    assert (Np : n_next_pos n slot = n_beg n + (slot + 1) * z).
    { unfold n_next_pos. rewrite file_pos_spec, nbps_spec by (assumption || lia). fold z. lia. }
    assert (Nx : forall o s1, s_w s1 = W -> nof s1 -> off <= o <= Z.max off (Z.min (n_beg n + (slot + 1) * z) end_) ->
        empty_to hole W i off0 (Z.min (n_beg n + (slot + 1) * z) end_) ->
        match seek_slots f rec i n (slot + 1) (adv_to o end_ (n_next_pos n slot)) end_ s1 with
        | (s', (o', Ok r)) => nof s' /\ s_w s' = W /\ found hole W i off0 end_ o' r /\ o' < n_end n
        | (s', (o', Err e)) => nof s' /\ s_w s' = W /\ off <= o' <= Z.max off (Z.min (n_end n) end_) /\ (e = ENOENT -> empty_to hole W i off0 (Z.min (n_end n) end_))
        | (_, (_, Bad)) => False
        end).
    { intros o s1 Hw1 N1 Ro Em1. rewrite Np. set (o1 := adv_to o end_ (n_beg n + (slot + 1) * z)).
      assert (Z1 : (slot + 1) * z <= 1024 * z) by nia.
      assert (Eo : o1 = Z.min (Z.max o (n_beg n + (slot + 1) * z)) end_) by (unfold o1, adv_to, off_clamp; lia).
      assert (X : off <= o1 <= Z.max off (Z.min (n_end n) end_)) by lia.
      assert (Em2 : empty_to hole W i off0 o1).
      { intros Hh x Hx. destruct (Z_lt_dec x (Z.min (n_beg n + (slot + 1) * z) end_)); [apply (Em1 Hh); lia|apply (Em Hh); lia]. }
      pose proof (IH (slot + 1) o1 ltac:(lia) ltac:(lia) ltac:(lia) ltac:(lia) ltac:(lia) Em2 s1 Hw1 N1) as Y.
      destruct (seek_slots f rec i n (slot + 1) o1 end_ s1) as [s' [o' [r|e|]]]; [exact Y| |exact Y].
      destruct Y as (Y1 & Y2 & Y3 & Y4). split; [exact Y1|]. split; [exact Y2|]. split; [lia|exact Y4]. }
    destruct (child_at n slot) as [[t c]|] eqn:C.
    + apply child_at_some in C. destruct C as (Hc & _ & ->).
      destruct (child_shape W a n slot T Ha H3 ltac:(lia) Hc) as (m & Hm & Im & Hhm & Shm & Bm & Enm). fold z in Bm, Enm.
      pose proof (sp_stage_node W i t (n_child n slot) m Hm ltac:(congruence) ltac:(lia) s Hw N) as Sp.
      destruct (stage_node i (Some (t, n_child n slot)) s) as [s1 [c|e|]]; [| |contradiction].
      * destruct Sp as (N1 & W1 & ->).
        assert (Pc : path d (n_child n slot) m).
        { intros x Hx. rewrite Pa by nia. rewrite walk_S, Ha.
          destruct (slot_pos n slot x Sh ltac:(lia)) as [Rx Sx]; [fold z; lia|].
          replace (n_inrange n x) with true by (symmetry; apply inrange_iff; exact Rx). replace (n_height n <=? 2) with false by lia.
          rewrite Sx. unfold child_at. rewrite Hc. reflexivity. }
        pose proof (Rec (n_child n slot) m off Hm ltac:(congruence) ltac:(lia) Pc Ho ltac:(lia) Em s1 W1 N1) as Y.
        destruct (rec (n_child n slot) off s1) as [s2 [o2 [r|e|]]]; [| |contradiction].
        -- destruct Y as (Y1 & Y2 & Y3 & Y4). split; [exact Y1|]. split; [exact Y2|]. split; [exact Y3|nia].
        -- destruct Y as (Y1 & Y2 & Y4 & Y5). destruct (e =? ENOENT) eqn:X.
           ++ specialize (Y5 ltac:(lia)). assert (Em' : n_end m = n_beg n + (slot + 1) * z) by lia. rewrite Em' in *. apply Nx; assumption.
           ++ split; [exact Y1|]. split; [exact Y2|]. split; [nia|]. intro; lia.
      * destruct Sp as (N1 & Ne & W1). replace (e =? ENOENT) with false by lia. split; [exact N1|]. split; [exact W1|]. split; [lia|]. intro; contradiction.
    + apply child_at_none in C. apply Nx; [exact Hw|exact N|lia|].
      intros Hh x Hx. destruct (Z_lt_dec x off) as [Lx|Gx]; [apply (Em Hh); lia|].
      unfold nodata, key_of. rewrite Kd by lia.
      destruct (slot_pos n slot x Sh ltac:(lia)) as [Rx Sx]; [fold z; lia|].
      rewrite Pa by lia. rewrite walk_S, Ha. replace (n_inrange n x) with true by (symmetry; apply inrange_iff; exact Rx).
      replace (n_height n <=? 2) with false by lia. rewrite Sx. unfold child_at. rewrite C. exact I.
Qed.
Lemma seek_rec_S : forall d a off s, seek_rec (S d) hole i end_ a off s =
    match w_node (s_w s) a with
    | None => (s, (off, Bad))
    | Some n =>
      if negb (n_inrange n off) then (s, (off, Err ENOENT))
      else if negb (height_legal n) then (s, (off, Bad))
      else if n_height n <=? 2
           then (s, seek_leaves 1024 hole (fi_ty2 (w_ino (s_w s) i)) a n (slot_of n off) off end_)
           else seek_slots 1024 (seek_rec d hole i end_) i n (slot_of n off) off end_ s
    end.
Proof. reflexivity. Qed.
Lemma rec_seek : forall d a n off, w_node W a = Some n -> n_ino n = i -> n_height n <= Z.of_nat d + 1 -> path d a n ->
  off0 <= off <= end_ -> (n_beg n <= off \/ off = end_) -> empty_to hole W i off0 off -> below n off (seek_rec d hole i end_ a off).
Proof.
  induction d as [|d IH]; intros a n off Ha In Hd Pa Ho Hb Em; destruct (ti_shape W T a n Ha) as [_ Sh]; pose proof (sh_h n Sh) as H5; [lia|].
  intros s Hw N. rewrite seek_rec_S, Hw, Ha. destruct (n_inrange n off) eqn:R; cbn [negb].
  2: { split; [exact N|]. split; [exact Hw|]. split; [lia|]. intros _. intros Hh x Hx. apply (Em Hh).
       assert (~ (n_beg n <= off < n_end n)) by (intro X; apply inrange_iff in X; congruence). lia. }
  apply inrange_iff in R. unfold height_legal, F_HEIGHT_MAX. replace ((1 <=? n_height n) && (n_height n <=? 5)) with true by lia. cbn [negb].
  pose proof (slot_range n off Sh R) as Sr. pose proof (slot_bounds n off Sh R) as Sb.
  destruct (n_height n <=? 2) eqn:B.
  - assert (H2 : n_height n = 2) by lia. rewrite H2, sub2 in Sb.
    assert (Bt : forall x, n_beg n <= x < n_end n -> bottom W i x = Some a).
    { intros x Hx. rewrite Pa by exact Hx. rewrite walk_S, Ha. replace (n_inrange n x) with true by (symmetry; apply inrange_iff; exact Hx). rewrite B. reflexivity. }
    pose proof (leaves_seek a n Ha H2 Bt 1024 (slot_of n off) off ltac:(lia) ltac:(lia) ltac:(lia) ltac:(lia) ltac:(lia)) as Y.
    assert (Em' : empty_to hole W i off0 (Z.min (Z.max off (n_beg n + slot_of n off * 65536)) end_)) by (intros Hh x Hx; apply (Em Hh); lia).
    specialize (Y Em'). destruct (seek_leaves 1024 hole (fi_ty2 (w_ino W i)) a n (slot_of n off) off end_) as [o [r|e|]]; [| |contradiction].
    + split; [exact N|]. split; [exact Hw|]. exact Y.
    + destruct Y as (-> & Y1 & Y2). split; [exact N|]. split; [exact Hw|]. split; [lia|]. intros _. exact Y2.
  - apply (slots_seek d a n (seek_rec d hole i end_) Ha In ltac:(lia) Hd Pa) with (f := 1024%nat); try assumption; try lia.
Qed.
Lemma tree_seek : off0 <= end_ ->
  spec2 W (seek_by_tree hole i off0 end_) (fun o r => found hole W i off0 end_ o r)
          (fun o e => off0 <= o <= end_ /\ (e = ENOENT -> empty_to hole W i off0 end_)).
Proof.
  intros L s Hw N. unfold seek_by_tree. rewrite Hw. unfold has_root.
  destruct (fi_slot (w_ino W i) 0) as [[t r]|] eqn:Er.
  - destruct (ti_root W T i t r Er) as (-> & n & Hn & In & Hb). rewrite Z.eqb_refl. cbn [negb].
    pose proof (sp_stage_root W i LT_FTNODE r n T Er Hn s Hw N) as Sp. destruct (stage_root i s) as [s1 [c|e|]]; [| |contradiction].
    + destruct Sp as (N1 & W1 & ->). destruct (ti_shape W T r n Hn) as [_ Sh]. pose proof (sh_h n Sh) as H5.
      assert (Pa : path 6 r n).
      { intros x Hx. unfold bottom, root_of. rewrite Er. apply (walk_fuel W x T 5 6 r n Hn); lia. }
      pose proof (rec_seek 6 r n off0 Hn In ltac:(lia) Pa ltac:(lia) ltac:(lia) ltac:(intros _ x Hx; lia) s1 W1 N1) as Y.
      destruct (seek_rec 6 hole i end_ r off0 s1) as [s2 [o [r0|e|]]]; [| |contradiction].
      * destruct Y as (Y1 & Y2 & Y3 & _). auto.
      * destruct Y as (Y1 & Y2 & Y3 & Y4). split; [exact Y1|]. split; [exact Y2|]. split; [lia|].
        intros E0 Hh x Hx. destruct (Z_lt_dec x (n_end n)) as [Lx|Gx]; [apply (Y4 E0 Hh); lia|].
        unfold nodata, key_of. rewrite Kd by lia. unfold bottom, root_of. rewrite Er, walk_S, Hn.
        destruct (n_inrange n x) eqn:Rx; [apply inrange_iff in Rx; lia|exact Logic.I].
    + destruct Sp as (N1 & Ne & W1). split; [exact N1|]. split; [exact W1|]. split; [lia|]. intro; contradiction.
  - split; [exact N|]. split; [exact Hw|]. split; [lia|]. intros _ _ x Hx.
    unfold nodata, key_of. rewrite Kd by lia. unfold bottom, root_of. rewrite Er. exact Logic.I.
Qed.
End Seek.

(* ---- discarding ---- *)

Definition zer : Z -> Z := fun _ => 0.
Definition Some_of (i end_ a o : Z) (W W' : world) : Prop := Eff i a end_ W W'.
Lemma disc_rel : forall i end_, range_rel i end_ (Upd i zer) (Some_of i end_).
Proof.
  intros i end_. destruct (upd_rel i zer end_) as [A B C D]. constructor; [exact A| |exact C|].
  - intros a b c W W1 W2 H H1 H2 [X _] Y. exact (eff_join i a b end_ W W1 W2 ltac:(lia) X Y).
  - intros a W W' H X. split; [apply D; assumption|]. apply eff_empty, X.
Qed.
Lemma discard_leaf_upd : forall zm W i off end_ q, Inv W -> 0 <= off < end_ -> key_of W i off = Some q ->
  spec W (discard_by zm i (ref_at W i off end_ q) off end_) (fun _ W' => Upd i zer off (Z.min (leaf_end W i off) end_) W W')
       (EW (Some_of i end_ off off W)).
Proof.
  intros zm W i off end_ q I H E.
  eapply sp_conseq; [apply (sp_discard_by W zm i off end_ q _ I H E (ref_like W i off end_ q ltac:(lia) E) eq_refl)| |].
  - cbv beta. intros _ W' [A V]. apply (leaf_upd W i off end_ q W' zer I H E A). intros k Hk. apply V. lia.
  - intros e W' [Ne A]. split; [exact Ne|]. exact (proj1 (leaf_part W i off end_ q W' zer I H E A)).
Qed.
Lemma discard_heads_S : forall f zm k i off end_ s, discard_heads (S f) zm k i off end_ s =
    let ty2 := fi_ty2 (w_ino (s_w s) i) in
    if has_head_io k ty2 off end_
    then match (r <- resolve_head k i off end_ ;; discard_by zm i r off end_) s with
         | (s', Ok _) => discard_heads f zm k i (adv_next ty2 off end_) end_ s'
         | (s', Err e) => (s', (off, Err e))
         | (s', Bad) => (s', (off, Bad))
         end
    else (s, (off, Ok tt)).
Proof. reflexivity. Qed.
Lemma discard_loop_h : forall zm k i end_, k <> TREE ->
  head_loop i end_ k (fun _ _ => True) (fun off => r <- resolve_head k i off end_ ;; discard_by zm i r off end_) (fun f off => discard_heads f zm k i off end_).
Proof.
  intros zm k i end_ Nk f off s H. cbv zeta. rewrite discard_heads_S. cbv zeta.
  destruct (has_head_io k (fi_ty2 (w_ino (s_w s) i)) off end_) eqn:Hh; [|reflexivity].
  apply has_head_iff in Hh; [|lia|exact Nk]. destruct Hh as [L Ek].
  destruct ((r <- resolve_head k i off end_ ;; discard_by zm i r off end_) s) as [s' [x|e|]]; [|reflexivity|exact Logic.I].
  intros _. rewrite (leaf_end_kind _ _ _ _ Ek). rewrite (adv_next_kind k) by (assumption || lia). reflexivity.
Qed.
Lemma discard_tree_S : forall f zm i off end_ s, discard_tree (S f) zm i off end_ s =
    if off <? end_
    then match seek_by_tree false i off end_ s with
         | (s1, (off1, Ok r)) =>
           match discard_by zm i r off1 end_ s1 with
           | (s2, Ok _) => discard_tree f zm i (adv_next (fi_ty2 (w_ino (s_w s) i)) off1 end_) end_ s2
           | (s2, Err e) => (s2, (off1, Err e))
           | (s2, Bad) => (s2, (off1, Bad))
           end
         | (s1, (off1, Err e)) => if e =? ENOENT then (s1, (off1, Ok tt)) else (s1, (off1, Err e))
         | (s1, (off1, Bad)) => (s1, (off1, Bad))
         end
    else (s, (off, Ok tt)).
Proof. reflexivity. Qed.
Lemma empty_upd : forall W i a b, Inv W -> empty_to false W i a b -> Upd i zer a b W W.
Proof.
  intros W i a b I Em. split; [apply eff_refl, I|]. intros x Hx. apply nodata_zero, (Em eq_refl), Hx.
Qed.
Definition disc_fuel (f : nat) (off end_ : Z) : Prop := (f <> 0)%nat /\ (off < end_ -> end_ - off / 65536 * 65536 <= (Z.of_nat f - 1) * 65536).
Lemma disc_fuel_0 : forall off end_, 0 <= off <= end_ -> disc_fuel (rounds_leaf off end_) off end_.
Proof. intros off end_ H. unfold disc_fuel, rounds_leaf, TREE_LEAF. split; lia. Qed.
Lemma sl_discard_tree : forall zm i end_ f W off, Inv W -> 0 <= off <= end_ -> (off < end_ -> kind_of (fi_ty2 (w_ino W i)) off = TREE) -> disc_fuel f off end_ ->
  specL W (discard_tree f zm i off end_) (fun _ W' => Upd i zer off end_ W W' /\ True) (errL end_ (Some_of i end_) W off).
Proof.
  intros zm i end_. pose proof (disc_rel i end_) as RR.
  induction f as [|f IH]; intros W off I H Kd Hf; [destruct Hf; congruence|].
  intros s Hs N. rewrite discard_tree_S. destruct (off <? end_) eqn:L.
  2: { split; [exact N|]. rewrite Hs. split; [|exact Logic.I]. replace end_ with off by lia. apply (rr_eff0 _ _ _ _ RR); [lia|apply eff_refl, I]. }
  assert (L' : off < end_) by lia. specialize (Kd L'). destruct Hf as [_ Hf]. specialize (Hf L').
  assert (Ku : forall x, off <= x -> kind_of (fi_ty2 (w_ino W i)) x = TREE) by (intros x Hx; apply (tree_kind_up _ off); [lia|exact Kd]).
  pose proof (tree_seek W i end_ off false (proj1 I) ltac:(lia) (fun x Hx => Ku x (proj1 Hx)) ltac:(lia) s Hs N) as Sk.
  destruct (seek_by_tree false i off end_ s) as [s1 [o1 [r|e|]]]; [| |contradiction].
  - destruct Sk as (N1 & W1 & Ro & (q & Kq & -> & _) & Em).
    assert (Un : Upd i zer off o1 W W) by (apply empty_upd; assumption).
    pose proof (discard_leaf_upd zm W i o1 end_ q I ltac:(lia) Kq s1 W1 N1) as Sd.
    destruct (discard_by zm i (ref_at W i o1 end_ q) o1 end_ s1) as [s2 [[]|e|]]; [| |contradiction].
    + destruct Sd as (N2 & U2). rewrite Hs. rewrite (adv_next_kind TREE) by (apply Ku || lia; lia).
      rewrite (tree_leaf_end W i o1 (Ku o1 ltac:(lia))) in U2.
      change (kend TREE o1) with (o1 / 65536 * 65536 + 65536). set (o2 := Z.min (o1 / 65536 * 65536 + 65536) end_) in *.
      assert (U02 : Upd i zer off o2 W (s_w s2)) by (apply (rr_trans _ _ _ _ RR off o1 o2 W W); try lia; assumption).
      destruct (rr_inv _ _ _ _ RR _ _ _ _ U02) as [I2 T2].
      assert (Sp := IH (s_w s2) o2 I2 ltac:(lia)).
      assert (K2 : o2 < end_ -> kind_of (fi_ty2 (w_ino (s_w s2) i)) o2 = TREE) by (intros _; rewrite T2; apply Ku; lia).
      assert (F2 : disc_fuel f o2 end_) by (split; lia).
      specialize (Sp K2 F2 s2 eq_refl N2). destruct (discard_tree f zm i o2 end_ s2) as [s3 [o3 [[]|e|]]]; [| |contradiction].
      * destruct Sp as (N3 & U3 & _). split; [exact N3|]. split; [|exact Logic.I]. apply (rr_trans _ _ _ _ RR off o2 end_ W (s_w s2)); try lia; assumption.
      * destruct Sp as (N3 & Ne & R3 & U3). split; [exact N3|]. split; [exact Ne|]. split; [lia|]. apply (rr_fail _ _ _ _ RR off o2 o3 W (s_w s2)); try lia; assumption.
    + destruct Sd as (N2 & Ne & P2). split; [exact N2|]. split; [exact Ne|]. split; [lia|]. apply (rr_fail _ _ _ _ RR off o1 o1 W W); try lia; assumption.
  - destruct Sk as (N1 & W1 & Ro & Em). destruct (e =? ENOENT) eqn:X.
    + split; [exact N1|]. rewrite W1. split; [|exact Logic.I]. apply empty_upd; [exact I|]. apply Em. lia.
    + split; [exact N1|]. split; [lia|]. split; [lia|]. rewrite W1. apply eff_refl, I.
Qed.
Lemma sl_discard_data : forall zm W i off end_, Inv W -> 0 <= off <= end_ ->
  specL W (discard_data zm i off end_) (fun _ W' => Upd i zer off end_ W W' /\ True) (errL end_ (Some_of i end_) W off).
Proof.
  intros zm W i off end_ I H. pose proof (disc_rel i end_) as RR. unfold discard_data.
  assert (St : forall k, k <> TREE -> forall W o, Inv W -> 0 <= o < end_ -> kind_of (fi_ty2 (w_ino W i)) o = k ->
     spec W (r <- resolve_head k i o end_ ;; discard_by zm i r o end_) (fun n W' => True /\ Upd i zer o (Z.min (leaf_end W i o) end_) W W')
          (EW (Some_of i end_ o o W))).
  { intros k Nk W0 o I0 Ho Ek. eapply sp_bind; [apply (sp_resolve_head W0 i o end_ k ltac:(lia) Ek Nk)|]. cbv beta. intros r W' [-> ->].
    eapply sp_conseq; [apply (discard_leaf_upd zm W0 i o end_ _ I0 Ho (key_of_head W0 i o k Ek Nk))| |intros e W' X; exact X].
    cbv beta. intros _ W' X. split; [exact Logic.I|exact X]. }
  apply (range_ok i end_ _ _ RR (fun _ => True) (fun o => discard_heads 5 zm HD1 i o end_) (fun o => discard_heads 16 zm HD2 i o end_)
           (fun o2 s => if negb (has_root (w_ino (s_w s) i)) then (s, (o2, Ok tt)) else discard_tree (rounds_leaf o2 end_) zm i o2 end_ s) W off I H).
  - intros W0 o I0 Ho. apply (heads_ok i end_ _ _ RR unit HD1 _ _ (fun f o => discard_heads f zm HD1 i o end_) ltac:(discriminate)
      (discard_loop_h zm HD1 i end_ ltac:(discriminate)) (St HD1 ltac:(discriminate)) 5%nat W0 o I0 Ho); [|discriminate].
    intros _ _. apply head_fuel_1. lia.
  - intros W0 o I0 Ho. apply (heads_ok i end_ _ _ RR unit HD2 _ _ (fun f o => discard_heads f zm HD2 i o end_) ltac:(discriminate)
      (discard_loop_h zm HD2 i end_ ltac:(discriminate)) (St HD2 ltac:(discriminate)) 16%nat W0 o I0 Ho); [|discriminate].
    intros _ Ek. apply (head_fuel_2 _ o ltac:(lia) Ek).
  - intros W0 o I0 Ho Ek s Hs N. cbv beta. rewrite Hs. destruct (has_root (w_ino W0 i)) eqn:Hr; cbn [negb].
    + apply (sl_discard_tree zm i end_ _ W0 o I0 Ho Ek (disc_fuel_0 o end_ ltac:(lia)) s Hs N).
    + split; [exact N|]. rewrite Hs. split; [|exact Logic.I]. apply empty_upd; [exact I0|]. intros _ x Hx. unfold nodata, key_of.
      rewrite (tree_kind_up _ o) by (apply Ek || lia; lia). unfold bottom, root_of. unfold has_root in Hr.
      destruct (fi_slot (w_ino W0 i) 0) as [[t r]|] eqn:Er; [|exact Logic.I].
      destruct (ti_root W0 (proj1 I0) i t r Er) as [-> _]. rewrite Z.eqb_refl in Hr. discriminate.
Qed.
