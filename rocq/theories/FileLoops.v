(* Triples for the loops over the leaves of a range: writing, reserving and discarding *)
From Verif Require Import Base AddrModel FileModel FileTree FileInv FileSpec FileLeaf FileRead FileGrow.

Definition specL (W : world) (l : L) (Q : Z -> world -> Prop) (E : Z -> Z -> world -> Prop) : Prop :=
  forall s, s_w s = W -> nof s ->
  match l s with
  | (s', (o, Ok _)) => nof s' /\ Q o (s_w s')
  | (s', (o, Err e)) => nof s' /\ E o e (s_w s')
  | (s', (_, Bad)) => False
  end.
Lemma sl_conseq : forall W l (Q Q' : Z -> world -> Prop) (E E' : Z -> Z -> world -> Prop), specL W l Q E -> (forall o W', Q o W' -> Q' o W') ->
  (forall o e W', E o e W' -> E' o e W') -> specL W l Q' E'.
Proof.
  intros W l Q Q' E E' H HQ HE s Hs N. specialize (H s Hs N). destruct (l s) as [s' [o [[]|e|]]]; [| |exact H]; destruct H; auto.
Qed.
Lemma sl_and : forall W off a b Q Q' E, specL W a Q E -> (forall o W', Q o W' -> specL W' (b o) Q' E) -> specL W (andL off a b) Q' E.
Proof.
  intros W off a b Q Q' E H K s Hs N. unfold andL. specialize (H s Hs N). destruct (a s) as [s' [o [[]|e|]]]; [|exact H|exact H].
  destruct H as [N' HQ]. exact (K o (s_w s') HQ s' eq_refl N').
Qed.

(* what has been done of a range, and what may be done when a step fails; full up to the given offset *)
Record range_rel (i end_ : Z) (Done Fail : Z -> Z -> world -> world -> Prop) : Prop := mkRR {
  rr_trans : forall a b c W W1 W2, 0 <= a <= b -> b <= c -> c <= end_ -> Done a b W W1 -> Done b c W1 W2 -> Done a c W W2;
  rr_fail : forall a b c W W1 W2, 0 <= a <= b -> b <= c -> c <= end_ -> Done a b W W1 -> Fail b c W1 W2 -> Fail a c W W2;
  rr_inv : forall a b W W', Done a b W W' -> Inv W' /\ fi_ty2 (w_ino W' i) = fi_ty2 (w_ino W i);
  rr_eff0 : forall a W W', 0 <= a -> Eff i 0 0 W W' -> Done a a W W' /\ Fail a a W W' }.

Section Loops.
Variables (i end_ : Z) (Done Fail : Z -> Z -> world -> world -> Prop).
Hypothesis RR : range_rel i end_ Done Fail.
Definition errL (W : world) (off : Z) : Z -> Z -> world -> Prop := fun o e W' => e <> ENOENT /\ off <= o <= end_ /\ Fail off o W W'.

(* a loop over one kind of head leaves *)
Definition head_loop {A} (k : kind) (good : Z -> A -> Prop) (step : Z -> M A) (F : nat -> Z -> L) : Prop :=
  forall f off s, 0 <= off ->
  let ty2 := fi_ty2 (w_ino (s_w s) i) in
  if has_head_io k ty2 off end_
  then match step off s with
       | (s', Ok x) => good off x -> F (S f) off s = F f (Z.min (leaf_end (s_w s) i off) end_) s'
       | (s', Err e) => F (S f) off s = (s', (off, Err e))
       | (s', Bad) => True
       end
  else F (S f) off s = (s, (off, Ok tt)).
Lemma heads_ok : forall A k (good : Z -> A -> Prop) step F, k <> TREE -> head_loop k good step F ->
  (forall W off, Inv W -> 0 <= off < end_ -> kind_of (fi_ty2 (w_ino W i)) off = k ->
     spec W (step off) (fun x W' => good off x /\ Done off (Z.min (leaf_end W i off) end_) W W') (EW (Fail off off W))) ->
  forall f W off, Inv W -> 0 <= off <= end_ -> (off < end_ -> kind_of (fi_ty2 (w_ino W i)) off = k -> head_fuel f k off) -> (f <> 0)%nat ->
  specL W (F f off) (fun o W' => Done off o W W' /\ off <= o <= end_ /\ (o < end_ -> kind_of (fi_ty2 (w_ino W' i)) o <> k)) (errL W off).
Proof.
  intros A k good step F Nk HF St. induction f as [|f IH]; intros W off I H Hf Nz; [congruence|].
  intros s Hs N. pose proof (HF f off s ltac:(lia)) as X. cbv zeta in X. rewrite Hs in X.
  destruct (has_head_io k (fi_ty2 (w_ino W i)) off end_) eqn:Hh.
  - apply has_head_iff in Hh; [|lia|exact Nk]. destruct Hh as [L Ek]. specialize (Hf L Ek).
    destruct (head_leaf W i off k ltac:(lia) Nk Ek) as (L1 & L2 & L3 & L4).
    pose proof (St W off I ltac:(lia) Ek s Hs N) as Sp. destruct (step off s) as [s' [x|e|]]; [| |contradiction].
    + destruct Sp as (N' & Gd & Dn). rewrite (X Gd). set (o := Z.min (leaf_end W i off) end_) in *.
      destruct (rr_inv _ _ _ _ RR _ _ _ _ Dn) as [I' Ty'].
      assert (Nf : (f <> 0)%nat).
      { intros ->. unfold head_fuel in Hf. destruct k; [| |congruence]; cbn [head_max kind_ltype] in *;
        [change (ltype_size LT_DATA1K) with 1024 in *|change (ltype_size LT_DATA4K) with 4096 in *]; lia. }
      assert (Sp2 := IH (s_w s') o I' ltac:(lia)).
      assert (Hf2 : o < end_ -> kind_of (fi_ty2 (w_ino (s_w s') i)) o = k -> head_fuel f k o).
      { intros Lo _. apply (head_fuel_step f k off); try assumption; [|lia]. replace o with (leaf_end W i off) by lia. exact L3. }
      specialize (Sp2 Hf2 Nf s' eq_refl N'). destruct (F f o s') as [s2 [o2 [[]|e|]]]; [| |contradiction].
      * destruct Sp2 as (N2 & D2 & R2 & K2). split; [exact N2|]. split; [|split; [lia|exact K2]].
        apply (rr_trans _ _ _ _ RR off o o2 W (s_w s')); try lia; assumption.
      * destruct Sp2 as (N2 & Ne & Ro & Fl). split; [exact N2|]. split; [exact Ne|]. split; [lia|]. apply (rr_fail _ _ _ _ RR off o o2 W (s_w s')); try lia; assumption.
    + destruct Sp as (N' & Ne & Fl). rewrite X. split; [exact N'|]. split; [exact Ne|]. split; [lia|exact Fl].
  - rewrite X. split; [exact N|]. rewrite Hs. split; [apply (rr_eff0 _ _ _ _ RR); [lia|apply eff_refl, I]|]. split; [lia|].
    intros L Y. assert (has_head_io k (fi_ty2 (w_ino W i)) off end_ = true) by (apply has_head_iff; [lia|exact Nk|auto]). congruence.
Qed.

(* the loop over the leaves of a bottom node *)
Definition leaf_loop {A} (good : Z -> A -> Prop) (step : Z -> Z -> M A) (F : nat -> Z -> Z -> L) : Prop :=
  forall f p off s, 0 <= off -> kind_of (fi_ty2 (w_ino (s_w s) i)) off = TREE ->
  if off <? end_
  then match step p off s with
       | (s', Ok x) => good off x ->
         let o := Z.min (off / 65536 * 65536 + 65536) end_ in
         F (S f) p off s = if at_boundary o then (s', (o, Ok tt)) else F f p o s'
       | (s', Err e) => F (S f) p off s = (s', (off, Err e))
       | (s', Bad) => True
       end
  else F (S f) p off s = (s, (off, Ok tt)).
Lemma leaves_ok : forall A (good : Z -> A -> Prop) step F, leaf_loop good step F ->
  (forall W off p, Inv W -> 0 <= off < end_ -> kind_of (fi_ty2 (w_ino W i)) off = TREE -> bottom W i off = Some p ->
     spec W (step p off) (fun x W' => good off x /\ same_skel W W' /\ Done off (Z.min (off / 65536 * 65536 + 65536) end_) W W') (EW (Fail off off W))) ->
  forall p f W off, Inv W -> 0 <= off < end_ -> kind_of (fi_ty2 (w_ino W i)) off = TREE -> bottom W i off = Some p -> leaves_fuel f off ->
  specL W (F f p off) (fun o W' => Done off o W W' /\ o = Z.min (map_end off) end_) (errL W off).
Proof.
  intros A good step F HF St p. induction f as [|f IH]; intros W off I H Kd B Hf; [unfold leaves_fuel, map_end in Hf; lia|].
  intros s Hs N. pose proof (HF f p off s ltac:(lia)) as X. rewrite Hs in X. specialize (X Kd). replace (off <? end_) with true in X by lia.
  pose proof (St W off p I H Kd B s Hs N) as Sp. unfold leaves_fuel in Hf.
  assert (Dm : map_end off = off / 67108864 * 67108864 + 67108864) by reflexivity.
  destruct (step p off s) as [s' [x|e|]]; [| |contradiction].
  - destruct Sp as (N' & Gd & Sk & Dn). rewrite (X Gd). clear X. cbv zeta. set (o := Z.min (off / 65536 * 65536 + 65536) end_) in *.
    destruct (rr_inv _ _ _ _ RR _ _ _ _ Dn) as [I' Ty'].
    destruct (at_boundary o) eqn:Ab.
    + apply boundary_iff in Ab; [|lia]. split; [exact N'|]. split; [exact Dn|]. lia.
    + assert (Nb : o mod 67108864 <> 0) by (intro X; apply boundary_iff in X; [congruence|lia]).
      destruct (Z_lt_dec o end_) as [Le|Ge].
      * assert (Eo : o = off / 65536 * 65536 + 65536) by lia.
        assert (Sm : off / 67108864 = o / 67108864) by (rewrite Eo in *; lia).
        assert (Em : map_end o = map_end off) by (unfold map_end; rewrite Sm; reflexivity).
        assert (Sp2 : specL (s_w s') (F f p o) (fun o' W' => Done o o' (s_w s') W' /\ o' = Z.min (map_end o) end_) (errL (s_w s') o)).
        { apply IH; try assumption; try lia.
          - rewrite Ty'. apply (tree_kind_up _ off); [lia|exact Kd].
          - rewrite (skel_bottom W (s_w s') i o (proj1 I) Sk). rewrite <- B. apply bottom_same; [apply I|symmetry; exact Sm].
          - unfold leaves_fuel. rewrite Em. replace (o / 65536) with (off / 65536 + 1) by (rewrite Eo; lia). lia. }
        specialize (Sp2 s' eq_refl N'). destruct (F f p o s') as [s2 [o2 [[]|e|]]]; [| |contradiction].
        -- destruct Sp2 as (N2 & D2 & E2). split; [exact N2|]. split; [|congruence]. assert (o <= o2 <= end_) by (unfold map_end in *; lia).
           apply (rr_trans _ _ _ _ RR off o o2 W (s_w s')); try lia; assumption.
        -- destruct Sp2 as (N2 & Ne & Ro & Fl). split; [exact N2|]. split; [exact Ne|]. split; [lia|].
           apply (rr_fail _ _ _ _ RR off o o2 W (s_w s')); try lia; assumption.
      * destruct f as [|f']; [exfalso; lia|].
        pose proof (HF f' p o s' ltac:(lia)) as X. rewrite Ty' in X. specialize (X ltac:(apply (tree_kind_up _ off); [lia|exact Kd])).
        replace (o <? end_) with false in X by lia. rewrite X. split; [exact N'|]. split; [exact Dn|]. lia.
  - destruct Sp as (N' & Ne & Fl). rewrite X. split; [exact N'|]. split; [exact Ne|]. split; [lia|exact Fl].
Qed.

(* the loop over the bottom nodes *)
Definition tree_loop (G : Z -> Z -> L) (F : nat -> Z -> L) : Prop :=
  forall f off s,
  F (S f) off s = if off <? end_
                  then match require_tree i off s with
                       | (s1, Ok p) => match G p off s1 with (s2, (o, Ok _)) => F f o s2 | r => r end
                       | (s1, Err e) => (s1, (off, Err e))
                       | (s1, Bad) => (s1, (off, Bad))
                       end
                  else (s, (off, Ok tt)).
Lemma tree_ok : forall G F, end_ <= 2 ^ 56 -> tree_loop G F ->
  (forall W off p, Inv W -> 0 <= off < end_ -> kind_of (fi_ty2 (w_ino W i)) off = TREE -> bottom W i off = Some p ->
     specL W (G p off) (fun o W' => Done off o W W' /\ o = Z.min (map_end off) end_) (errL W off)) ->
  forall f W off, Inv W -> 0 <= off <= end_ -> (off < end_ -> kind_of (fi_ty2 (w_ino W i)) off = TREE) -> map_fuel f off end_ ->
  specL W (F f off) (fun o W' => Done off o W W' /\ o = end_) (errL W off).
Proof.
  intros G F Hm HF HG. induction f as [|f IH]; intros W off I H Kd Hf; [destruct Hf; lia|].
  intros s Hs N. rewrite HF. destruct (off <? end_) eqn:L.
  - assert (Kd' : kind_of (fi_ty2 (w_ino W i)) off = TREE) by (apply Kd; lia).
    pose proof (sp_require_tree W i off I ltac:(lia) s Hs N) as Sp. destruct (require_tree i off s) as [s1 [p|e|]]; [| |contradiction].
    + destruct Sp as (N1 & E1 & B1). pose proof (e_inv _ _ _ _ _ E1) as I1. pose proof (e_ty2 _ _ _ _ _ E1) as T1.
      assert (K1 : kind_of (fi_ty2 (w_ino (s_w s1) i)) off = TREE) by (rewrite T1; exact Kd').
      assert (D0 : Done off off W (s_w s1)) by (apply (rr_eff0 _ _ _ _ RR); [lia|exact E1]).
      pose proof (HG (s_w s1) off p I1 ltac:(lia) K1 B1 s1 eq_refl N1) as Sg. destruct (G p off s1) as [s2 [o [[]|e|]]]; [| |contradiction].
      * destruct Sg as (N2 & D2 & Eo). assert (Ro : off < o <= end_) by (unfold map_end in Eo; lia).
        assert (D02 : Done off o W (s_w s2)) by (apply (rr_trans _ _ _ _ RR off off o W (s_w s1)); try lia; assumption).
        destruct (rr_inv _ _ _ _ RR _ _ _ _ D02) as [I2 T2].
        assert (Sf : specL (s_w s2) (F f o) (fun o' W' => Done o o' (s_w s2) W' /\ o' = end_) (errL (s_w s2) o)).
        { apply IH; try assumption; try lia.
          - intros _. rewrite T2. apply (tree_kind_up _ off); [lia|exact Kd'].
          - rewrite Eo. apply map_fuel_step; [lia|exact Hf]. }
        specialize (Sf s2 eq_refl N2). destruct (F f o s2) as [s3 [o3 [[]|e|]]]; [| |contradiction].
        -- destruct Sf as (N3 & D3 & E3). split; [exact N3|]. split; [|exact E3]. apply (rr_trans _ _ _ _ RR off o o3 W (s_w s2)); try lia; assumption.
        -- destruct Sf as (N3 & Ne & R3 & Fl). split; [exact N3|]. split; [exact Ne|]. split; [lia|].
           apply (rr_fail _ _ _ _ RR off o o3 W (s_w s2)); try lia; assumption.
      * destruct Sg as (N2 & Ne & Ro & Fl). split; [exact N2|]. split; [exact Ne|]. split; [lia|].
        apply (rr_fail _ _ _ _ RR off off o W (s_w s1)); try lia; assumption.
    + destruct Sp as (N1 & Ne & E1). split; [exact N1|]. split; [exact Ne|]. split; [lia|]. apply (rr_eff0 _ _ _ _ RR); [lia|exact E1].
  - split; [exact N|]. rewrite Hs. split; [apply (rr_eff0 _ _ _ _ RR); [lia|apply eff_refl, I]|lia].
Qed.

(* heads of both kinds, then the rest *)
Lemma range_ok : forall (P : Z -> Prop) (H1 H2 : Z -> L) (T : Z -> L) W off, Inv W -> 0 <= off <= end_ ->
  (forall W off, Inv W -> 0 <= off <= end_ ->
     specL W (H1 off) (fun o W' => Done off o W W' /\ off <= o <= end_ /\ (o < end_ -> kind_of (fi_ty2 (w_ino W' i)) o <> HD1)) (errL W off)) ->
  (forall W off, Inv W -> 0 <= off <= end_ ->
     specL W (H2 off) (fun o W' => Done off o W W' /\ off <= o <= end_ /\ (o < end_ -> kind_of (fi_ty2 (w_ino W' i)) o <> HD2)) (errL W off)) ->
  (forall W off, Inv W -> 0 <= off <= end_ -> (off < end_ -> kind_of (fi_ty2 (w_ino W i)) off = TREE) ->
     specL W (T off) (fun o W' => Done off end_ W W' /\ P o) (errL W off)) ->
  specL W (andL off (H1 off) (fun o1 => andL o1 (H2 o1) (fun o2 => T o2))) (fun o W' => Done off end_ W W' /\ P o) (errL W off).
Proof.
  intros P H1 H2 T W off I H S1 S2 S3. eapply sl_and; [apply (S1 W off I H)|]. cbv beta. intros o1 W1 (D1 & R1 & K1).
  destruct (rr_inv _ _ _ _ RR _ _ _ _ D1) as [I1 T1].
  assert (Er1 : forall o e W', errL W1 o1 o e W' -> errL W off o e W').
  { intros o e W' (Ne & Ro & Fl). split; [exact Ne|]. split; [lia|]. apply (rr_fail _ _ _ _ RR off o1 o W W1); try lia; assumption. }
  eapply sl_and; [eapply sl_conseq; [apply (S2 W1 o1 I1); lia|intros o W' X; exact X|exact Er1]|]. cbv beta. intros o2 W2 (D2 & R2 & K2).
  destruct (rr_inv _ _ _ _ RR _ _ _ _ D2) as [I2 T2].
  assert (D02 : Done off o2 W W2) by (apply (rr_trans _ _ _ _ RR off o1 o2 W W1); try lia; assumption).
  eapply sl_conseq; [apply (S3 W2 o2 I2)| |].
  - lia.
  - intro L. apply not_heads_tree; [|apply K2, L]. rewrite T2. apply (not_head1_up _ o1); [lia|]. apply K1. lia.
  - cbv beta. intros o W' [D3 Po]. split; [|exact Po]. apply (rr_trans _ _ _ _ RR off o2 end_ W W2); try lia; assumption.
  - intros o e W' (Ne & Ro & Fl). split; [exact Ne|]. split; [lia|]. apply (rr_fail _ _ _ _ RR off o2 o W W2); try lia; assumption.
Qed.
End Loops.
