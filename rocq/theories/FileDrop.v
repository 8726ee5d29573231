(* Triples for dropping the whole mapping of a file, and for truncating *)
From Verif Require Import Base AddrModel FileModel FileTree FileInv FileSpec FileLeaf FileRead FileGrow FileLoops FileOps FileSeek.

(* ---- parts of the tree given up ---- *)

(* only file i has changed; its nodes up to height h and its leaves may be gone *)
Record Drop (i h : Z) (W W' : world) : Prop := mkDrop {
  d_inv : Inv W';
  d_ino : forall j, j <> i -> w_ino W' j = w_ino W j;
  d_ty2 : fi_ty2 (w_ino W' i) = fi_ty2 (w_ino W i);
  d_size : fi_size (w_ino W' i) = fi_size (w_ino W i);
  d_span : fi_span (w_ino W' i) = fi_span (w_ino W i);
  d_root : fi_slot (w_ino W' i) 0 = fi_slot (w_ino W i) 0;
  d_head : forall k, hold W' (KH i k) = hold W (KH i k);
  d_oth : forall j off, j <> i -> 0 <= off -> content W' j off = content W j off;
  d_node : forall a n, w_node W a = Some n -> n_ino n <> i \/ h < n_height n -> w_node W' a = Some n;
  d_ref : refs1 W -> refs1 W' }.
(* the same with nothing told about the tree of the file *)
Record Loss (i : Z) (W W' : world) : Prop := mkLoss {
  l_inv : Inv W';
  l_ino : forall j, j <> i -> w_ino W' j = w_ino W j;
  l_ty2 : fi_ty2 (w_ino W' i) = fi_ty2 (w_ino W i);
  l_size : fi_size (w_ino W' i) = fi_size (w_ino W i);
  l_span : fi_span (w_ino W' i) = fi_span (w_ino W i);
  l_oth : forall j off, j <> i -> 0 <= off -> content W' j off = content W j off }.
Lemma drop_loss : forall i h W W', Drop i h W W' -> Loss i W W'.
Proof. intros i h W W' [A B C D E F G H I J]. constructor; assumption. Qed.
Lemma loss_refl : forall i W, Inv W -> Loss i W W.
Proof. intros i W H. constructor; auto. Qed.
Lemma drop_refl : forall i h W, Inv W -> Drop i h W W.
Proof. intros i h W H. constructor; auto. Qed.
Lemma loss_trans : forall i W W1 W2, Loss i W W1 -> Loss i W1 W2 -> Loss i W W2.
Proof.
  intros i W W1 W2 [A B C D E F] [A' B' C' D' E' F']. constructor; try congruence; try assumption.
  - intros j N. rewrite B', B by exact N. reflexivity.
  - intros j off N H. rewrite F', F by assumption. reflexivity.
Qed.
Lemma drop_trans : forall i h W W1 W2, Drop i h W W1 -> Drop i h W1 W2 -> Drop i h W W2.
Proof.
  intros i h W W1 W2 [A B C D E F G H I J] [A' B' C' D' E' F' G' H' I' J']. constructor; try congruence; try assumption; try auto.
  - intros j N. rewrite B', B by exact N. reflexivity.
  - intros j off N P. rewrite H', H by assumption. reflexivity.
Qed.
Lemma drop_up : forall i h h' W W', h <= h' -> Drop i h W W' -> Drop i h' W W'.
Proof. intros i h h' W W' L [A B C D E F G H I J]. constructor; try assumption. intros a n Ha X. apply I; [exact Ha|lia]. Qed.

Lemma keff_oth : forall i q lo hi W W' j off, Inv W -> KEff i q lo hi W W' -> owner W q = Some i -> j <> i -> 0 <= off -> content W' j off = content W j off.
Proof.
  intros i q lo hi W W' j off I A Ow N H. unfold content. rewrite (keff_key i q lo hi W W' j off I A).
  destruct (key_of W j off) as [x|] eqn:E; [|reflexivity]. apply (k_oth _ _ _ _ _ _ A).
  pose proof (key_of_owner W j off x (proj1 I) H E) as Ox. intros ->. congruence.
Qed.
Lemma keff_loss : forall i q lo hi W W', Inv W -> KEff i q lo hi W W' -> owner W q = Some i -> Loss i W W'.
Proof.
  intros i q lo hi W W' I A Ow. constructor; try apply A. intros j off N H. apply (keff_oth i q lo hi); assumption.
Qed.

(* nodes of other files keep their walks *)
Lemma walk_frame : forall W W' j off, tree_inv W -> (forall a n, w_node W a = Some n -> n_ino n = j -> w_node W' a = Some n) ->
  forall d a n, w_node W a = Some n -> n_ino n = j -> walk d W' a off = walk d W a off.
Proof.
  intros W W' j off T F. induction d as [|d IH]; intros a n Ha In; [reflexivity|]. rewrite !walk_S, Ha, (F a n Ha In).
  destruct (n_inrange n off) eqn:R; [|reflexivity]. apply inrange_iff in R. destruct (ti_shape W T a n Ha) as [_ Sh].
  destruct (n_height n <=? 2) eqn:B; [reflexivity|]. destruct (child_at n (slot_of n off)) as [[t c]|] eqn:C; [|reflexivity].
  apply child_at_some in C. destruct C as (Hc & _ & ->).
  destruct (ti_child W T a n (slot_of n off)) as (m & Hm & Im & _); [split; [exact Ha|lia]|apply slot_range; assumption|exact Hc|].
  apply (IH _ m Hm). congruence.
Qed.
Lemma kval_hold : forall W W' q k, hold W' q = hold W q -> (forall t a, w_blk W' t a = w_blk W t a) -> kval W' q k = kval W q k.
Proof. intros W W' q k H B. unfold kval. rewrite H. destruct (hold W q) as [[t a]|]; [rewrite B|]; reflexivity. Qed.
Lemma content_frame : forall W W' j off, tree_inv W -> (forall a n, w_node W a = Some n -> n_ino n = j -> w_node W' a = Some n) ->
  w_ino W' j = w_ino W j -> (forall t a, w_blk W' t a = w_blk W t a) -> content W' j off = content W j off.
Proof.
  intros W W' j off T F Ei Eb. unfold content, key_of. rewrite Ei. unfold bottom, root_of. rewrite Ei.
  destruct (kind_of (fi_ty2 (w_ino W j)) off).
  1,2: apply kval_hold; [cbn [hold]; rewrite Ei; reflexivity|exact Eb].
  destruct (fi_slot (w_ino W j) 0) as [[t r]|] eqn:Er; [|reflexivity].
  destruct (ti_root W T j t r Er) as (_ & n & Hn & In & _). rewrite (walk_frame W W' j off T F 5 r n Hn In).
  destruct (walk 5 W r off) as [p|] eqn:Wk; [|reflexivity].
  destruct (walk_found W T 5 r n off p Hn Wk) as (m & Hm & Im & _).
  apply kval_hold; [|exact Eb]. cbn [hold]. rewrite Hm, (F p m Hm) by congruence. reflexivity.
Qed.

(* a node without children is removed together with the pointer to it *)
Definition barren (n : ftn) : Prop := forall s, 0 <= s < 1024 -> has_child n s = false.
Lemma prune_inv : forall W W' c m i, Inv W -> w_node W c = Some m -> barren m -> n_ino m = i ->
  (forall a n', w_node W' a = Some n' -> a <> c /\ exists n, w_node W a = Some n /\ n_ino n' = n_ino n /\ n_beg n' = n_beg n /\ n_end n' = n_end n /\
     n_height n' = n_height n /\ n_ctype n' = n_ctype n /\ n_nact n' = cnt (n_child n') /\ (n_height n = 2 -> n' = n) /\
     (forall s, 0 <= s < 1024 -> has_child n' s = true -> n_child n' s = n_child n s /\ (3 <= n_height n -> n_child n s <> c)) /\
     (forall s, 0 <= s < 1024 -> n_child n' s = n_child n s \/ n_child n' s = OFF_NULL)) ->
  (forall a n, w_node W a = Some n -> a <> c -> exists n', w_node W' a = Some n') ->
  (forall j t r, fi_slot (w_ino W' j) 0 = Some (t, r) -> fi_slot (w_ino W j) 0 = Some (t, r) /\ r <> c) ->
  (forall j k, hold W' (KH j k) = hold W (KH j k)) ->
  (forall j, fi_blocks (w_ino W' j) = fi_blocks (w_ino W j)) ->
  (forall t a, w_blk W' t a = w_blk W t a) -> Inv W'.
Proof.
  intros W W' c m i [T K] Hm Bm Im Nd Nx Rt Hd Bk Eb.
  assert (Hh : forall q, hold W' q = hold W q).
  { intros [j k|a s]; [apply Hd|]. cbn [hold]. destruct (w_node W' a) as [n'|] eqn:Ha'.
    - destruct (Nd a n' Ha') as (Nc & n & Hn & _ & _ & _ & Eh & _ & _ & E2 & _). rewrite Hn, Eh.
      destruct (n_height n =? 2) eqn:X; [|reflexivity]. rewrite E2 by lia. reflexivity.
    - destruct (w_node W a) as [n|] eqn:Ha; [|reflexivity]. destruct (Z.eq_dec a c) as [->|Nc].
      + assert (n = m) by congruence. subst n. destruct ((n_height m =? 2) && (0 <=? s) && (s <? 1024)) eqn:X; [|reflexivity].
        unfold child_at. rewrite Bm by lia. reflexivity.
      + destruct (Nx a n Ha Nc). congruence. }
  split.
  - constructor.
    + intros a n' Ha. destruct (Nd a n' Ha) as (_ & n & Hn & E1 & E2 & E3 & E4 & E5 & _). destruct (ti_shape W T a n Hn) as [P Sh].
      split; [exact P|]. destruct Sh as [A1 A2 A3 A4 A5]. constructor; rewrite ?E2, ?E3, ?E4, ?E5; assumption.
    + intros a n' s [Ha Ih] Hs Hc. destruct (Nd a n' Ha) as (_ & n & Hn & E1 & E2 & E3 & E4 & E5 & _ & _ & Ch & _).
      destruct (Ch s Hs Hc) as [Ec Nc]. specialize (Nc ltac:(lia)). assert (Hc2 : has_child n s = true) by (unfold has_child in *; rewrite <- Ec; exact Hc).
      destruct (ti_child W T a n s) as (x & Hx & X1 & X2 & X3); [split; [exact Hn|lia]|exact Hs|exact Hc2|].
      destruct (Nx _ x Hx Nc) as [x' Hx']. destruct (Nd _ x' Hx') as (_ & x0 & Hx0 & F1 & F2 & F3 & F4 & _). assert (x0 = x) by congruence. subst x0.
      rewrite Ec. exists x'. split; [exact Hx'|]. rewrite F1, F2, F4, E1, E2, E4. auto.
    + intros a n' s a2 n2' s2 [Ha Ih] [Ha2 Ih2] Hs Hs2 Hc Ec. destruct (Nd a n' Ha) as (_ & n & Hn & _ & _ & _ & E4 & _ & _ & _ & Ch & _).
      destruct (Nd a2 n2' Ha2) as (_ & n2 & Hn2 & _ & _ & _ & E4' & _ & _ & _ & Ch2 & Cn2). destruct (Ch s Hs Hc) as [Es Nc].
      assert (Hc2 : has_child n s = true) by (unfold has_child in *; rewrite <- Es; exact Hc).
      apply (ti_inj W T a n s a2 n2 s2); try assumption; [split; [exact Hn|lia]|split; [exact Hn2|lia]|].
      destruct (Cn2 s2 Hs2) as [X|X]; [congruence|]. unfold has_child, off_isnull, OFF_NULL in *. lia.
    + intros j t r Hr. destruct (Rt j t r Hr) as [Hr0 Nc]. destruct (ti_root W T j t r Hr0) as (Et & n & Hn & In & Hb). split; [exact Et|].
      destruct (Nx r n Hn Nc) as [n' Hn']. destruct (Nd r n' Hn') as (_ & n0 & Hn0 & E1 & E2 & _). exists n'. split; [exact Hn'|]. assert (n0 = n) by congruence. subst n0.
      split; congruence.
    + intros j t r a n' s Hr [Ha Ih] Hs. destruct (Rt j t r Hr) as [Hr0 Nc]. destruct (Nd a n' Ha) as (_ & n & Hn & _ & _ & _ & E4 & _ & _ & _ & _ & Cn).
      destruct (Cn s Hs) as [X|X]; rewrite X.
      * apply (ti_free W T j t r a n s Hr0); [split; [exact Hn|lia]|exact Hs].
      * destruct (ti_root W T j t r Hr0) as (_ & n0 & Hn0 & _). destruct (ti_shape W T r n0 Hn0) as [P _]. unfold OFF_NULL. lia.
    + intros a n' Ha. destruct (Nd a n' Ha) as (_ & n & _ & _ & _ & _ & _ & _ & E & _). exact E.
  - apply (keys_inv_ext W W' K Hh); [|exact Eb|exact Bk].
    intros [j k|a s] Hq; [reflexivity|]. cbn [owner]. cbn [hold] in Hq. destruct (w_node W a) as [n|] eqn:Ha; [|congruence].
    assert (Nc : a <> c).
    { intros ->. assert (n = m) by congruence. subst n. destruct ((n_height m =? 2) && (0 <=? s) && (s <? 1024)) eqn:X; [|congruence].
      unfold child_at in Hq. rewrite Bm in Hq by lia. congruence. }
    destruct (Nx a n Ha Nc) as [n' Hn']. rewrite Hn'. destruct (Nd a n' Hn') as (_ & n0 & Hn0 & E1 & _). f_equal. congruence.
Qed.

Definition Gone (a : Z) (W W' : world) : Prop :=
  (forall x, w_node W' x = if x =? a then None else w_node W x) /\ (forall j, w_ino W' j = w_ino W j) /\ (forall t x, w_blk W' t x = w_blk W t x).
Definition Bare (i h a : Z) (W W' : world) : Prop := exists n, Drop i h W W' /\ w_node W' a = Some n /\ barren n /\ n_ino n = i.
Definition Cut (i h a : Z) (W W' : world) : Prop := exists W1, Bare i h a W W1 /\ Gone a W1 W'.

Lemma has_null : forall n s, has_child (assign_child n s OFF_NULL) s = false.
Proof. intros n s. unfold has_child. rewrite assign_child_at, Z.eqb_refl. reflexivity. Qed.
Lemma has_assign : forall n s x s', s' <> s -> has_child (assign_child n s x) s' = has_child n s'.
Proof. intros n s x s' N. unfold has_child. rewrite assign_child_at. replace (s' =? s) with false by lia. reflexivity. Qed.
(* the pointer of the parent is cleared *)
Lemma drop_child : forall i h a n slot c W W1 W2, Inv W -> w_node W a = Some n -> n_ino n = i -> n_height n = h -> 3 <= h -> 0 <= slot < 1024 ->
  has_child n slot = true -> n_child n slot = c -> Drop i (h - 1) W W1 -> (exists m, w_node W1 c = Some m /\ barren m /\ n_ino m = i) -> Gone c W1 W2 ->
  Drop i h W (set_node W2 a (Some (clear_child n slot))).
Proof.
  intros i h a n slot c W W1 W2 I Ha In Hh H3 Hs Hc Ec D (m & Hm & Bm & Im) (Gn & Gi & Gb).
  assert (Ha1 : w_node W1 a = Some n) by (apply (d_node _ _ _ _ D); [exact Ha|lia]).
  pose proof (d_inv _ _ _ _ D) as I1. pose proof (proj1 I1) as T1.
  destruct (ti_child W1 T1 a n slot) as (m' & Hm' & Im' & Hm2 & _); [split; [exact Ha1|lia]|exact Hs|exact Hc|]. rewrite Ec in Hm'.
  assert (m' = m) by congruence. subst m'.
  assert (Nac : a <> c) by (intros ->; assert (n = m) by congruence; subst n; lia).
  rewrite clear_is_assign by exact Hc. set (n2 := assign_child n slot OFF_NULL). set (W3 := set_node W2 a (Some n2)).
  assert (Nw : forall x, w_node W3 x = if x =? a then Some n2 else if x =? c then None else w_node W1 x).
  { intro x. unfold W3. cbn [set_node w_node]. unfold fset. destruct (x =? a); [reflexivity|]. apply Gn. }
  assert (I3 : Inv W3).
  { apply (prune_inv W1 W3 c m i I1 Hm Bm Im).
    - intros x y Hx. rewrite Nw in Hx. destruct (x =? a) eqn:Xa.
      + assert (x = a) by lia. subst x. assert (y = n2) by congruence. subst y. split; [exact Nac|]. exists n. split; [exact Ha1|].
        split; [reflexivity|]. split; [reflexivity|]. split; [reflexivity|]. split; [reflexivity|]. split; [reflexivity|].
        split; [apply assign_nact; [exact Hs|apply (ti_nact W1 T1 a n Ha1)]|]. split; [lia|]. split.
        * intros s Rs Hcs. unfold n2 in Hcs. destruct (Z.eq_dec s slot) as [->|Ns]; [rewrite has_null in Hcs; discriminate|].
          rewrite has_assign in Hcs by exact Ns. unfold n2. rewrite assign_child_at. replace (s =? slot) with false by lia. split; [reflexivity|].
          intros _ E. destruct (ti_inj W1 T1 a n s a n slot) as [_ X]; try assumption; try (split; [exact Ha1|lia]); congruence.
        * intros s Rs. unfold n2. rewrite assign_child_at. destruct (s =? slot); [right; reflexivity|left; reflexivity].
      + destruct (x =? c) eqn:Xc; [discriminate|]. split; [lia|]. exists y. split; [exact Hx|].
        split; [reflexivity|]. split; [reflexivity|]. split; [reflexivity|]. split; [reflexivity|]. split; [reflexivity|].
        split; [apply (ti_nact W1 T1 x y Hx)|]. split; [reflexivity|]. split.
        * intros s Rs Hcs. split; [reflexivity|]. intros H3' E. destruct (ti_inj W1 T1 x y s a n slot) as [X _]; try assumption; try (split; [assumption|lia]); [congruence|lia].
        * intros s Rs. left. reflexivity.
    - intros x y Hx Nx. rewrite Nw. destruct (x =? a); [exists n2; reflexivity|]. replace (x =? c) with false by lia. exists y. exact Hx.
    - intros j t r Hr. change (w_ino W3 j) with (w_ino W2 j) in Hr. rewrite Gi in Hr. split; [exact Hr|].
      intros ->. apply (ti_free W1 T1 j t c a n slot Hr); [split; [exact Ha1|lia]|exact Hs|exact Ec].
    - intros j k. cbn [hold]. change (w_ino W3 j) with (w_ino W2 j). rewrite Gi. reflexivity.
    - intro j. change (w_ino W3 j) with (w_ino W2 j). rewrite Gi. reflexivity.
    - intros t x. change (w_blk W3 t x) with (w_blk W2 t x). apply Gb. }
  apply (drop_trans i h W W1); [apply (drop_up i (h - 1)); [lia|exact D]|].
  assert (Fr : forall x y, w_node W1 x = Some y -> n_ino y <> i \/ h < n_height y -> w_node W3 x = Some y).
  { intros x y Hx O. rewrite Nw. destruct (x =? a) eqn:Xa; [assert (x = a) by lia; subst x; assert (y = n) by congruence; subst y; lia|].
    destruct (x =? c) eqn:Xc; [assert (x = c) by lia; subst x; assert (y = m) by congruence; subst y; lia|exact Hx]. }
  constructor; try (change (w_ino W3) with (w_ino W2); rewrite Gi; reflexivity).
  - exact I3.
  - intros j N. apply Gi.
  - intro k. cbn [hold]. change (w_ino W3 i) with (w_ino W2 i). rewrite Gi. reflexivity.
  - intros j off N H. apply content_frame; [exact T1| |apply Gi|exact Gb].
    intros x y Hx Iy. apply (Fr x y Hx). left. congruence.
  - exact Fr.
  - intros R x y Hx. rewrite Nw in Hx. destruct (x =? a) eqn:Xa; [assert (y = n2) by congruence; subst y; apply (R a n Ha1)|].
    destruct (x =? c); [discriminate|]. apply (R x y Hx).
Qed.
Lemma sp_drop_bottom : forall W i a n slot t c, Inv W -> w_node W a = Some n -> n_ino n = i -> n_height n = 2 -> 0 <= slot < 1024 ->
  child_at n slot = Some (t, c) ->
  spec W (discard_leaf i t c) (fun _ W1 => w_node W1 a = Some n /\ Drop i 2 W (set_node W1 a (Some (clear_child n slot)))) (EW (Loss i W)).
Proof.
  intros W i a n slot t c I Ha In H2 Hs Hc.
  assert (Hq : hold W (KN a slot) = Some (t, c)).
  { cbn [hold]. rewrite Ha, H2. replace ((2 =? 2) && (0 <=? slot) && (slot <? 1024)) with true by lia. exact Hc. }
  assert (Ow : owner W (KN a slot) = Some i) by (cbn [owner]; rewrite Ha, In; reflexivity).
  pose proof (ki_blk W (proj2 I) _ _ _ Hq) as Hb. destruct (w_blk W t c) as [b|] eqn:B; [|congruence]. clear Hb.
  apply child_at_some in Hc. destruct Hc as (Hc & _ & _).
  eapply sp_conseq; [apply (sp_discard_leaf W i (KN a slot) t c b I Hq B)| |].
  - cbv beta. intros [] W1 (B1 & N1 & O1 & I1). split; [rewrite N1; exact Ha|]. set (W2 := set_node W1 a _).
    assert (Rb : Rebind W W2 i (KN a slot) None (- knk (KN a slot))).
    { apply (rebind_node W W2 i a n slot); try assumption; [apply I|exact Logic.I|].
      intro a'. unfold W2. cbn [set_node w_node voff]. unfold fset. rewrite clear_is_assign by exact Hc. rewrite N1. reflexivity. }
    assert (Ke : KEff i (KN a slot) 0 (ksize (KN a slot)) W W2) by (apply (keff_unbind W W2 i (KN a slot) t c b); assumption).
    constructor; try apply Ke.
    + intro k. apply (k_hold _ _ _ _ _ _ Ke). discriminate.
    + intros j off N H. apply (keff_oth i (KN a slot) 0 (ksize (KN a slot))); assumption.
    + intros x y Hx O. unfold W2. cbn [set_node w_node]. unfold fset. destruct (x =? a) eqn:Xa; [|rewrite N1; exact Hx].
      assert (x = a) by lia. subst x. assert (y = n) by congruence. subst y. lia.
  - intros e W' [Ne Ke]. split; [exact Ne|]. apply (keff_loss i (KN a slot) 0 (ksize (KN a slot))); assumption.
Qed.
Lemma drop_slots_S : forall f rec i a slot, drop_slots (S f) rec i a slot =
    (n <- the_node a ;;
    if (NODE_N <=? slot) || (n_nact n =? 0) then ret tt
    else match child_at n slot with
         | None => drop_slots f rec i a (slot + 1)
         | Some (t, c) =>
           bot <- isbottom n ;;
           (if bot then discard_leaf i t c else c' <- stage_node i (Some (t, c)) ;; rec c') ;;;
           n' <- the_node a ;; put_node a (clear_child n' slot) ;;; drop_slots f rec i a (slot + 1)
         end).
Proof. reflexivity. Qed.
Lemma bare_trans : forall i h a W W1 W2, Drop i h W W1 -> Bare i h a W1 W2 -> Bare i h a W W2.
Proof. intros i h a W W1 W2 D (n & D' & X). exists n. split; [apply (drop_trans i h W W1); assumption|exact X]. Qed.
Lemma sp_drop_slots : forall i h rec, 2 <= h <= 5 ->
  (forall W c m, Inv W -> refs1 W -> w_node W c = Some m -> n_ino m = i -> n_height m = h - 1 ->
     spec W (rec c) (fun _ W' => Cut i (h - 1) c W W') (EW (Loss i W))) ->
  forall f slot W a n, Inv W -> refs1 W -> w_node W a = Some n -> n_ino n = i -> n_height n = h -> 0 <= slot -> 1024 - slot < Z.of_nat f ->
  (forall s, 0 <= s < slot -> s < 1024 -> has_child n s = false) ->
  spec W (drop_slots f rec i a slot) (fun _ W' => Bare i h a W W') (EW (Loss i W)).
Proof.
  intros i h rec Rh Rec. induction f as [|f IH]; intros slot W a n I R Ha In Hh Hs Hf Cl.
  { cbn [drop_slots]. apply sp_ret. exists n. split; [apply drop_refl, I|]. split; [exact Ha|]. split; [|exact In]. intros s Rs. apply Cl; lia. }
  rewrite drop_slots_S. sp_node Ha. unfold NODE_N. destruct ((1024 <=? slot) || (n_nact n =? 0)) eqn:St.
  { apply sp_ret. exists n. split; [apply drop_refl, I|]. split; [exact Ha|]. split; [|exact In]. intros s Rs.
    destruct (1024 <=? slot) eqn:Sl; [apply Cl; lia|]. assert (Z0 : cnt (n_child n) = 0) by (rewrite <- (ti_nact W (proj1 I) a n Ha); lia).
    pose proof (cnt_zero _ Z0 s Rs). unfold has_child, off_isnull. lia. }
  assert (Rs : 0 <= slot < 1024) by lia.
  (* the rest after the slot has been cleared *)
  assert (Nx : forall W1, w_node W1 a = Some n -> has_child n slot = true -> Drop i h W (set_node W1 a (Some (clear_child n slot))) ->
     spec W1 (n' <- the_node a ;; put_node a (clear_child n' slot) ;;; drop_slots f rec i a (slot + 1))
       (fun _ W' => Bare i h a W W') (EW (Loss i W))).
  { intros W1 Ha1 Hc D. sp_node Ha1. eapply sp_bind; [apply sp_put_node|]. cbv beta. intros [] W2 ->.
    rewrite clear_is_assign in * by exact Hc. set (n2 := assign_child n slot OFF_NULL) in *. set (W2 := set_node W1 a (Some n2)) in *.
    eapply sp_conseq; [apply (IH (slot + 1) W2 a n2)| |].
    - apply D.
    - apply (d_ref _ _ _ _ D), R.
    - unfold W2. cbn [set_node w_node]. apply fset_same.
    - exact In.
    - exact Hh.
    - lia.
    - lia.
    - intros s R1 R2. unfold n2. destruct (Z.eq_dec s slot) as [->|Ns]; [apply has_null|]. rewrite has_assign by exact Ns. apply Cl; lia.
    - cbv beta. intros _ W' X. apply (bare_trans i h a W W2); assumption.
    - intros e W' [Ne X]. split; [exact Ne|]. apply (loss_trans i W W2); [apply (drop_loss i h), D|exact X]. }
  destruct (child_at n slot) as [[t c]|] eqn:C.
  - pose proof C as C'. apply child_at_some in C'. destruct C' as (Hc & Et & Ecc).
    unfold isbottom, height_legal, F_HEIGHT_MAX. rewrite Hh. replace ((1 <=? h) && (h <=? 5)) with true by lia.
    eapply sp_bind; [apply sp_ret with (Q := fun b W' => b = (h <=? 2) /\ W' = W); split; reflexivity|]. cbv beta. intros bot W' [-> ->].
    destruct (h <=? 2) eqn:B.
    + assert (h = 2) by lia. subst h. rewrite H in *.
      eapply sp_bind; [apply (sp_drop_bottom W i a n slot t c I Ha In H Rs C)|]. cbv beta. intros [] W1 [Ha1 D]. apply Nx; assumption.
    + subst c. destruct (ti_child W (proj1 I) a n slot) as (m & Hm & Im & Hm2 & _); [split; [exact Ha|lia]|exact Rs|exact Hc|].
      eapply sp_bind.
      * eapply sp_bind; [eapply sp_conseq; [apply (sp_stage_node W i t (n_child n slot) m Hm); [congruence|lia]|intros x W' X; exact X|]|].
        -- intros e W' [Ne ->]. split; [exact Ne|]. apply loss_refl, I.
        -- cbv beta. intros c' W' [-> ->]. apply (Rec W (n_child n slot) m I R Hm); [congruence|lia].
      * cbv beta. intros [] W2 (W1 & (m1 & D1 & Hm1 & Bm1 & Im1) & G). pose proof G as (Gn & _ & _).
        assert (Ha1 : w_node W1 a = Some n) by (apply (d_node _ _ _ _ D1); [exact Ha|lia]).
        assert (Nac : a <> n_child n slot) by (intro E; rewrite <- E in Hm; assert (n = m) by congruence; subst m; lia).
        apply Nx; [rewrite Gn; replace (a =? n_child n slot) with false by lia; exact Ha1|exact Hc|].
        apply (drop_child i h a n slot (n_child n slot) W W1 W2); try assumption; try reflexivity; [lia|]. exists m1. auto.
  - apply child_at_none in C. apply (IH (slot + 1) W a n); try assumption; [lia|lia|].
    intros s R1 R2. destruct (Z.eq_dec s slot) as [->|Ns]; [exact C|apply Cl; lia].
Qed.
Lemma nref_loss : forall W i a n r, Inv W -> w_node W a = Some n -> Loss i W (set_node W a (Some (set_nref n r))).
Proof.
  intros W i a n r [T K] Ha. set (W' := set_node W a _).
  assert (Nw : forall x, w_node W' x = if x =? a then Some (set_nref n r) else w_node W x) by (intro x; reflexivity).
  assert (Sk : same_skel W W').
  { split; [|reflexivity]. intro x. rewrite Nw. destruct (x =? a) eqn:X; [|destruct (w_node W x); [apply same_node_refl|exact I]].
    assert (x = a) by lia. subst x. rewrite Ha. unfold same_node. repeat split; reflexivity. }
  assert (Hh : forall q, hold W' q = hold W q).
  { intros [j k|x s]; [reflexivity|]. cbn [hold]. rewrite Nw. destruct (x =? a) eqn:X; [|reflexivity]. assert (x = a) by lia. subst x. rewrite Ha. reflexivity. }
  assert (I' : Inv W').
  { split.
    - apply (skel_tree_inv W W' T Sk). intros x y Hx. rewrite Nw in Hx. destruct (x =? a) eqn:X; [|apply (ti_nact W T x y Hx)].
      assert (y = set_nref n r) by congruence. subst y. apply (ti_nact W T a n Ha).
    - apply (keys_inv_ext W W' K Hh); [|reflexivity|reflexivity]. intros q _. apply skel_owner, Sk. }
  constructor; try reflexivity; [exact I'|]. intros j off N H. unfold content. rewrite (skel_key W W' j off T Sk) by reflexivity.
  destruct (key_of W j off) as [q|]; [|reflexivity]. apply kval_hold; [apply Hh|reflexivity].
Qed.
Lemma sp_drop_finode : forall W i a n, Inv W -> w_node W a = Some n -> n_ref n = 1 ->
  spec W (drop_finode a) (fun _ W' => Gone a W W') (EW (Loss i W)).
Proof.
  intros W i a n I Ha R. unfold drop_finode. sp_node Ha. rewrite R. change (1 <=? 0) with false. change (1 - 1) with 0. change (0 =? 0) with true. cbv iota.
  eapply sp_bind; [apply sp_put_node|]. cbv beta. intros [] W1 ->. set (W1 := set_node W a _).
  apply sp_mf.
  - intros s Hs N. cbn [set_w s_w]. rewrite Hs. split; [exact N|]. split; [|split; reflexivity].
    intro x. unfold W1. cbn [set_node w_node]. unfold fset. destruct (x =? a); reflexivity.
  - intros e Ne. split; [exact Ne|]. apply nref_loss; assumption.
Qed.
Lemma drop_subtree_S : forall d i a, drop_subtree (S d) i a = (drop_slots 1025 (drop_subtree d i) i a 0 ;;; drop_finode a).
Proof. reflexivity. Qed.
Lemma sp_drop_subtree : forall i d W a n, Inv W -> refs1 W -> w_node W a = Some n -> n_ino n = i -> n_height n <= Z.of_nat d + 1 ->
  spec W (drop_subtree d i a) (fun _ W' => Cut i (n_height n) a W W') (EW (Loss i W)).
Proof.
  intros i. induction d as [|d IH]; intros W a n I R Ha In Hd; destruct (ti_shape W (proj1 I) a n Ha) as [_ Sh]; pose proof (sh_h n Sh) as H5; [lia|].
  rewrite drop_subtree_S. eapply sp_bind.
  - apply (sp_drop_slots i (n_height n) (drop_subtree d i) H5) with (n := n); try assumption; try reflexivity; try lia.
    intros W0 c m I0 R0 Hm Im Hm2. rewrite <- Hm2. apply IH; try assumption. lia.
  - cbv beta. intros [] W1 (n1 & D & Hn1 & Bn1 & In1).
    eapply sp_conseq; [apply (sp_drop_finode W1 i a n1 (d_inv _ _ _ _ D) Hn1)| |].
    + apply (d_ref _ _ _ _ D R a n1 Hn1).
    + cbv beta. intros _ W' G. exists W1. split; [|exact G]. exists n1. auto.
    + intros e W' [Ne L]. split; [exact Ne|]. apply (loss_trans i W W1); [apply (drop_loss i (n_height n)), D|exact L].
Qed.

(* the root and the pointer to it *)
Lemma drop_root : forall i h t r W W1 W2, fi_slot (w_ino W i) 0 = Some (t, r) -> Bare i h r W W1 -> Gone r W1 W2 ->
  let W3 := set_ino W2 i (fi_set_slot (w_ino W2 i) 0 None) in
  Loss i W W3 /\ (refs1 W -> refs1 W3) /\ fi_slot (w_ino W3 i) 0 = None /\ (forall k, hold W3 (KH i k) = hold W (KH i k)).
Proof.
  intros i h t r W W1 W2 Er (m & D & Hm & Bm & Im) (Gn & Gi & Gb) W3.
  pose proof (d_inv _ _ _ _ D) as I1. pose proof (proj1 I1) as T1.
  assert (Er1 : fi_slot (w_ino W1 i) 0 = Some (t, r)) by (rewrite (d_root _ _ _ _ D); exact Er).
  assert (Hi : forall j, w_ino W3 j = if j =? i then fi_set_slot (w_ino W1 i) 0 None else w_ino W1 j).
  { intro j. unfold W3. cbn [set_ino w_ino]. unfold fset. destruct (j =? i); rewrite Gi; reflexivity. }
  assert (Hk : forall j k, hold W3 (KH j k) = hold W1 (KH j k)).
  { intros j k. cbn [hold]. rewrite Hi. destruct (j =? i) eqn:J; [|reflexivity]. assert (j = i) by lia. subst j. cbn [fi_set_slot fi_ty2 fi_slot].
    destruct ((1 <=? k) && (k <=? 19) && negb (fi_ty2 (w_ino W1 i))) eqn:K; [|reflexivity]. rewrite fset_other by lia. reflexivity. }
  assert (Nw : forall x, w_node W3 x = if x =? r then None else w_node W1 x) by exact Gn.
  assert (I3 : Inv W3).
  { apply (prune_inv W1 W3 r m i I1 Hm Bm Im).
    - intros x y Hx. rewrite Nw in Hx. destruct (x =? r) eqn:Xr; [discriminate|]. split; [lia|]. exists y. split; [exact Hx|].
      split; [reflexivity|]. split; [reflexivity|]. split; [reflexivity|]. split; [reflexivity|]. split; [reflexivity|].
      split; [apply (ti_nact W1 T1 x y Hx)|]. split; [reflexivity|]. split.
      + intros s Rs Hc. split; [reflexivity|]. intro H3. apply (ti_free W1 T1 i t r x y s Er1); [split; [exact Hx|exact H3]|exact Rs].
      + intros s Rs. left. reflexivity.
    - intros x y Hx Nx. exists y. rewrite Nw. replace (x =? r) with false by lia. exact Hx.
    - intros j t' r' Hr. rewrite Hi in Hr. destruct (j =? i) eqn:J; [cbn [fi_set_slot fi_slot] in Hr; rewrite fset_same in Hr; discriminate|].
      split; [exact Hr|]. intros ->. destruct (ti_root W1 T1 j t' r Hr) as (_ & m' & Hm' & Im' & _). assert (m' = m) by congruence. subst m'. lia.
    - exact Hk.
    - intro j. rewrite Hi. destruct (j =? i) eqn:J; [|reflexivity]. assert (j = i) by lia. subst j. reflexivity.
    - exact Gb. }
  split; [|split; [|split]].
  - apply (loss_trans i W W1); [apply (drop_loss i h), D|]. constructor; try (rewrite Hi, Z.eqb_refl; reflexivity).
    + exact I3.
    + intros j N. rewrite Hi. replace (j =? i) with false by lia. reflexivity.
    + intros j off N H. apply content_frame; [exact T1| |rewrite Hi; replace (j =? i) with false by lia; reflexivity|exact Gb].
      intros x y Hx Iy. rewrite Nw. destruct (x =? r) eqn:X; [|exact Hx]. assert (x = r) by lia. subst x. assert (y = m) by congruence. subst y. congruence.
  - intros R x y Hx. rewrite Nw in Hx. destruct (x =? r); [discriminate|]. apply (d_ref _ _ _ _ D R x y Hx).
  - rewrite Hi, Z.eqb_refl. cbn [fi_set_slot fi_slot]. apply fset_same.
  - intro k. rewrite Hk. apply (d_head _ _ _ _ D).
Qed.
Definition Emptied (i : Z) (W W' : world) : Prop :=
  Loss i W W' /\ (refs1 W -> refs1 W') /\ fi_slot (w_ino W' i) 0 = None /\ (forall k, hold W' (KH i k) = hold W (KH i k)).
Lemma sp_drop_tree : forall W i, Inv W -> refs1 W -> spec W (drop_tree i) (fun _ W' => Emptied i W W') (EW (Loss i W)).
Proof.
  intros W i I R. unfold drop_tree. sp_ino. unfold has_root. destruct (fi_slot (w_ino W i) 0) as [[t r]|] eqn:Er.
  - destruct (ti_root W (proj1 I) i t r Er) as (-> & n & Hn & In & _). change (LT_FTNODE =? LT_FTNODE) with true. cbn [negb].
    destruct (ti_shape W (proj1 I) r n Hn) as [_ Sh]. pose proof (sh_h n Sh) as H5.
    eapply sp_bind; [eapply sp_conseq; [apply (sp_stage_root W i LT_FTNODE r n (proj1 I) Er Hn)|intros x W' X; exact X|]|].
    + intros e W' [Ne ->]. split; [exact Ne|]. apply loss_refl, I.
    + cbv beta. intros c W' [-> ->]. eapply sp_bind; [apply (sp_drop_subtree i 6 W r n I R Hn In); lia|].
      cbv beta. intros [] W2 (W1 & B & G). unfold set_head. sp_ino. eapply sp_conseq; [apply sp_put_ino| |intros e W' X; exact X].
      cbv beta. intros [] W3 ->. exact (drop_root i (n_height n) LT_FTNODE r W W1 W2 Er B G).
  - cbn [negb]. apply sp_ret. split; [apply loss_refl, I|]. auto.
Qed.

(* ---- head leaves given up ---- *)

Record Heads (i : Z) (W W' : world) : Prop := mkHd {
  hd_loss : Loss i W W';
  hd_ref : refs1 W -> refs1 W';
  hd_root : fi_slot (w_ino W' i) 0 = fi_slot (w_ino W i) 0;
  hd_sub : forall k, hold W' (KH i k) = hold W (KH i k) \/ hold W' (KH i k) = None }.
Lemma heads_refl : forall i W, Inv W -> Heads i W W.
Proof. intros i W I. constructor; auto. apply loss_refl, I. Qed.
Lemma heads_trans : forall i W W1 W2, Heads i W W1 -> Heads i W1 W2 -> Heads i W W2.
Proof.
  intros i W W1 W2 [A B C D] [A' B' C' D']. constructor; [apply (loss_trans i W W1); assumption|auto|congruence|].
  intro k. destruct (D' k) as [->|E]; [apply D|right; exact E].
Qed.
Lemma keff_heads : forall i k W W', Inv W -> KEff i (KH i k) 0 (ksize (KH i k)) W W' -> hold W' (KH i k) = None -> Heads i W W'.
Proof.
  intros i k W W' I A H. constructor.
  - apply (keff_loss i (KH i k) 0 (ksize (KH i k))); [exact I|exact A|reflexivity].
  - apply A.
  - apply A.
  - intro k'. destruct (Z.eq_dec k' k) as [->|N]; [right; exact H|left]. apply (k_hold _ _ _ _ _ _ A). congruence.
Qed.
Lemma sp_drop_head : forall W i k, Inv W -> 1 <= k <= 19 -> fi_ty2 (w_ino W i) = false ->
  spec W ((match fi_slot (w_ino W i) k with None => ret tt | Some (t, a) => discard_leaf i t a end) ;;; set_head i k None)
    (fun _ W' => Heads i W W' /\ hold W' (KH i k) = None) (EW (Loss i W)).
Proof.
  intros W i k I Rk Ty. assert (Hq : hold W (KH i k) = fi_slot (w_ino W i) k).
  { cbn [hold]. rewrite Ty. replace ((1 <=? k) && (k <=? 19)) with true by lia. reflexivity. }
  destruct (fi_slot (w_ino W i) k) as [[t a]|] eqn:Es.
  - pose proof (ki_blk W (proj2 I) _ _ _ Hq) as Hb. destruct (w_blk W t a) as [b|] eqn:B; [|congruence]. clear Hb.
    eapply sp_bind; [eapply sp_conseq; [apply (sp_discard_leaf W i (KH i k) t a b I Hq B)|intros x W' X; exact X|]|].
    + intros e W' [Ne A]. split; [exact Ne|]. apply (keff_loss i (KH i k) 0 (ksize (KH i k))); [exact I|exact A|reflexivity].
    + cbv beta. intros [] W1 (B1 & N1 & O1 & I1). unfold set_head. sp_ino. eapply sp_conseq; [apply sp_put_ino| |intros e W' X; exact X].
      cbv beta. intros [] W2 ->. set (W2 := set_ino W1 i _).
      assert (Rb : Rebind W W2 i (KH i k) None (- knk (KH i k))).
      { apply rebind_head; try assumption; [apply I| |].
        - intros x Nx. unfold W2. cbn [set_ino w_ino]. rewrite fset_other by exact Nx. apply O1, Nx.
        - unfold W2. cbn [set_ino w_ino]. rewrite fset_same, I1. reflexivity. }
      split; [|apply (rb_hold _ _ _ _ _ _ Rb)].
      apply (keff_heads i k W W2 I); [apply (keff_unbind W W2 i (KH i k) t a b); try assumption; reflexivity|apply (rb_hold _ _ _ _ _ _ Rb)].
  - eapply sp_bind; [apply sp_ret with (Q := fun _ W' => W' = W); reflexivity|]. cbv beta. intros [] W' ->.
    unfold set_head. sp_ino. eapply sp_conseq; [apply sp_put_ino| |intros e W' X; exact X].
    cbv beta. intros [] W2 ->. set (W2 := set_ino W i _).
    assert (Rb : Rebind W W2 i (KH i k) None 0).
    { apply rebind_head; try assumption; [apply I| | |reflexivity].
      - intros x Nx. unfold W2. cbn [set_ino w_ino]. apply fset_other, Nx.
      - unfold W2. cbn [set_ino w_ino]. rewrite fset_same, Z.add_0_r. unfold fi_set_blocks, fi_set_slot. reflexivity. }
    split; [|apply (rb_hold _ _ _ _ _ _ Rb)]. apply (keff_heads i k W W2 I); [|apply (rb_hold _ _ _ _ _ _ Rb)].
    apply (keff_rebind W W2 i (KH i k) None 0 0 (ksize (KH i k)) I Rb).
    + reflexivity.
    + rewrite Hq. cbn [dn]. lia.
    + intros t a H. discriminate.
    + intros t a. rewrite Hq. change (w_blk W2 t a) with (w_blk W t a). cbn [dv]. destruct (w_blk W t a); [repeat split; lia|discriminate].
    + intros t a b'. apply (ki_one W (proj2 I)).
    + intros x R N. lia.
Qed.
Lemma drop_heads_S : forall n i slot k, drop_heads (S n) i slot k =
    (f <- the_ino i ;;
    (match fi_slot f (head_abs k slot) with None => ret tt | Some (t, a) => discard_leaf i t a end) ;;;
    set_head i (head_abs k slot) None ;;;
    drop_heads n i (slot + 1) k).
Proof. reflexivity. Qed.
Lemma head_abs_S : forall k s, k <> TREE -> head_abs k (s + 1) = head_abs k s + 1.
Proof. intros [| |] s N; [| |congruence]; cbn [head_abs]; unfold head1_abs, head2_abs; lia. Qed.
Lemma bind_assoc : forall A B C W (m : M A) (f : A -> M B) (g : B -> M C) Q E, spec W (bind (bind m f) g) Q E -> spec W (bind m (fun a => bind (f a) g)) Q E.
Proof.
  intros A B C W m f g Q E H s Hs N. specialize (H s Hs N). unfold bind in *. destruct (m s) as [s1 [a|e|]]; exact H.
Qed.
Lemma sp_drop_heads : forall i k, k <> TREE -> forall n slot W, Inv W -> fi_ty2 (w_ino W i) = false -> 0 <= slot ->
  1 <= head_abs k slot -> head_abs k slot + Z.of_nat n <= 20 ->
  spec W (drop_heads n i slot k)
    (fun _ W' => Heads i W W' /\ forall x, head_abs k slot <= x < head_abs k slot + Z.of_nat n -> hold W' (KH i x) = None) (EW (Loss i W)).
Proof.
  intros i k Nk. induction n as [|n IH]; intros slot W I Ty H0 R1 R2.
  - cbn [drop_heads]. apply sp_ret. split; [apply heads_refl, I|]. intros x Hx. lia.
  - rewrite drop_heads_S. sp_ino. apply bind_assoc.
    eapply sp_bind; [apply (sp_drop_head W i (head_abs k slot) I); [lia|exact Ty]|]. cbv beta. intros [] W1 [Hd Hn].
    pose proof (l_inv _ _ _ (hd_loss _ _ _ Hd)) as I1. pose proof (l_ty2 _ _ _ (hd_loss _ _ _ Hd)) as T1.
    eapply sp_conseq; [apply (IH (slot + 1) W1 I1)| |].
    + congruence.
    + lia.
    + rewrite head_abs_S by exact Nk. lia.
    + rewrite head_abs_S by exact Nk. lia.
    + cbv beta. rewrite head_abs_S by exact Nk. intros _ W' [Hd' Hn']. split; [apply (heads_trans i W W1); assumption|].
      intros x Hx. destruct (Z.eq_dec x (head_abs k slot)) as [->|Nx]; [|apply Hn'; lia].
      destruct (hd_sub _ _ _ Hd' (head_abs k slot)) as [E|E]; [congruence|exact E].
    + intros e W' [Ne L]. split; [exact Ne|]. apply (loss_trans i W W1); [apply Hd|exact L].
Qed.
Definition Cleared (i : Z) (W W' : world) : Prop := Loss i W W' /\ (refs1 W -> refs1 W') /\ (forall x, 0 <= x -> nodata W' i x) /\
  fi_slot (w_ino W' i) 0 = None /\ (forall k, hold W' (KH i k) = None).
Lemma sp_drop_all : forall W i, Inv W -> refs1 W -> spec W (drop_all i) (fun _ W' => Cleared i W W') (EW (Loss i W)).
Proof.
  intros W i I R. unfold drop_all. sp_ino.
  assert (Hk : forall W', fi_slot (w_ino W' i) 0 = None -> (forall k, hold W' (KH i k) = None) -> forall x, 0 <= x -> nodata W' i x).
  { intros W' E H x Hx. unfold nodata, key_of, bottom, root_of. rewrite E. destruct (kind_of (fi_ty2 (w_ino W' i)) x); [apply H|apply H|exact Logic.I]. }
  eapply sp_bind with (Q := fun _ W1 => Heads i W W1 /\ forall k, hold W1 (KH i k) = None).
  - destruct (fi_ty2 (w_ino W i)) eqn:Ty.
    + apply sp_ret. split; [apply heads_refl, I|]. intro k. cbn [hold]. rewrite Ty, andb_false_r. reflexivity.
    + eapply sp_bind; [apply (sp_drop_heads i HD1 ltac:(discriminate) 4 0 W I Ty); cbn [head_abs]; unfold head1_abs, HEAD2_N; lia|].
      cbv beta. intros [] W1 [Hd Hn]. pose proof (hd_loss _ _ _ Hd) as L1.
      eapply sp_conseq; [apply (sp_drop_heads i HD2 ltac:(discriminate) 15 0 W1 (l_inv _ _ _ L1))| |].
      * rewrite (l_ty2 _ _ _ L1). exact Ty.
      * lia.
      * cbn [head_abs]; unfold head2_abs; lia.
      * cbn [head_abs]; unfold head2_abs; lia.
      * cbv beta. intros _ W2 [Hd2 Hn2]. split; [apply (heads_trans i W W1); assumption|]. intro k.
        cbn [head_abs] in Hn, Hn2. unfold head1_abs, head2_abs, HEAD2_N in *.
        destruct (Z_lt_dec k 1) as [L|G]; [cbn [hold]; replace (1 <=? k) with false by lia; reflexivity|].
        destruct (Z_lt_dec 19 k) as [L|G2]; [cbn [hold]; replace (k <=? 19) with false by lia; rewrite andb_false_r; reflexivity|].
        destruct (Z_le_dec k 15) as [L|G3]; [apply Hn2; lia|].
        destruct (hd_sub _ _ _ Hd2 k) as [E|E]; [rewrite E; apply Hn; lia|exact E].
      * intros e W' [Ne L]. split; [exact Ne|]. apply (loss_trans i W W1); assumption.
  - cbv beta. intros [] W1 [Hd Hn]. pose proof (hd_loss _ _ _ Hd) as L1.
    eapply sp_conseq; [apply (sp_drop_tree W1 i (l_inv _ _ _ L1) (hd_ref _ _ _ Hd R))| |].
    + cbv beta. intros _ W' (L & Rf & Rt & Hh). assert (Hn' : forall k, hold W' (KH i k) = None) by (intro k; rewrite Hh; apply Hn).
      split; [apply (loss_trans i W W1); assumption|]. split; [intro X; apply Rf, (hd_ref _ _ _ Hd), X|].
      split; [apply Hk; assumption|]. split; assumption.
    + intros e W' [Ne L]. split; [exact Ne|]. apply (loss_trans i W W1); assumption.
Qed.

(* ---- truncate ---- *)

Lemma last_head_spec : forall n f k, match last_head n f k with
  | Some s => 0 <= s < Z.of_nat n /\ forall x, s < x < Z.of_nat n -> fi_slot f (head_abs k x) = None
  | None => forall x, 0 <= x < Z.of_nat n -> fi_slot f (head_abs k x) = None end.
Proof.
  induction n as [|n IH]; intros f k; [intros x Hx; lia|]. cbn [last_head]. destruct (fi_slot f (head_abs k (Z.of_nat n))) as [v|] eqn:E.
  - split; [lia|]. intros x Hx. lia.
  - specialize (IH f k). destruct (last_head n f k) as [s|].
    + destruct IH as [R H]. split; [lia|]. intros x Hx. destruct (Z.eq_dec x (Z.of_nat n)) as [->|N]; [exact E|apply H; lia].
    + intros x Hx. destruct (Z.eq_dec x (Z.of_nat n)) as [->|N]; [exact E|apply IH; lia].
Qed.
Lemma heads_end_range : forall f, 0 <= heads_end f.
Proof.
  intro f. unfold heads_end. destruct (fi_ty2 f); [lia|]. pose proof (last_head_spec 15 f HD2) as A. destruct (last_head 15 f HD2) as [s|].
  - unfold head2_end_of, HEAD2_LEAF. change head1_max with 4096. lia.
  - pose proof (last_head_spec 4 f HD1) as B. destruct (last_head 4 f HD1) as [s|]; [unfold head1_end_of, HEAD1_LEAF; lia|lia].
Qed.
Lemma past_heads : forall W i x, heads_end (w_ino W i) <= x -> 0 <= x -> kind_of (fi_ty2 (w_ino W i)) x <> TREE -> nodata W i x.
Proof.
  intros W i x H H0 N. unfold nodata, key_of.
  assert (Z0 : forall s, fi_slot (w_ino W i) s = None -> hold W (KH i s) = None) by (intros s E; cbn [hold]; rewrite E; destruct (_ && _); reflexivity).
  unfold heads_end in H. destruct (kind_cases (fi_ty2 (w_ino W i)) x H0) as [(X & Ty & R)|[(X & Ty & R)|(X & _)]]; [| |congruence]; rewrite X, Ty in *; apply Z0;
  pose proof (last_head_spec 15 (w_ino W i) HD2) as A; pose proof (last_head_spec 4 (w_ino W i) HD1) as B;
  (destruct (last_head 15 (w_ino W i) HD2) as [s|]; [unfold head2_end_of, HEAD2_LEAF in H; change head1_max with 4096 in H|]).
  - lia.
  - cbn [head_slot]. unfold head1_slot, HEAD1_LEAF. rewrite Z.quot_div_nonneg by lia.
    destruct (last_head 4 (w_ino W i) HD1) as [s|]; [unfold head1_end_of, HEAD1_LEAF in H; apply B; lia|apply B; lia].
  - cbn [head_slot]. unfold head2_slot, HEAD2_LEAF. change head1_max with 4096. rewrite Z.quot_div_nonneg by lia. apply A. lia.
  - cbn [head_slot]. unfold head2_slot, HEAD2_LEAF. change head1_max with 4096. rewrite Z.quot_div_nonneg by lia. apply A. lia.
Qed.
Lemma sp_tree_end : forall W i, Inv W ->
  spec W (tree_end i) (fun te W' => W' = W /\ 0 <= te /\ forall x, te <= x -> kind_of (fi_ty2 (w_ino W i)) x = TREE -> nodata W i x) (here W).
Proof.
  intros W i I. unfold tree_end. sp_ino. unfold has_root. destruct (fi_slot (w_ino W i) 0) as [[t r]|] eqn:Er.
  - destruct (ti_root W (proj1 I) i t r Er) as (-> & n & Hn & In & Hb). change (LT_FTNODE =? LT_FTNODE) with true. cbn [negb].
    eapply sp_bind; [apply (sp_stage_root W i LT_FTNODE r n (proj1 I) Er Hn)|]. cbv beta. intros c W' [-> ->]. sp_node Hn. apply sp_ret.
    destruct (ti_shape W (proj1 I) r n Hn) as [_ Sh]. split; [reflexivity|]. split.
    + rewrite (sh_end n Sh), Hb, span_eq by apply Sh. pose proof (sub_pos (n_height n) (sh_h n Sh)). lia.
    + intros x Hx Kd. unfold nodata, key_of. rewrite Kd. unfold bottom, root_of. rewrite Er, walk_S, Hn.
      destruct (n_inrange n x) eqn:R; [apply inrange_iff in R; lia|exact Logic.I].
  - cbn [negb]. apply sp_ret. split; [reflexivity|]. split; [lia|]. intros x Hx Kd. unfold nodata, key_of, bottom, root_of. rewrite Kd, Er. exact Logic.I.
Qed.
Lemma sp_runL : forall W l Q E, specL W l (fun _ => Q) (fun _ => E) -> spec W (runL l) (fun _ W' => Q W') E.
Proof.
  intros W l Q E H s Hs N. unfold runL. specialize (H s Hs N). destruct (l s) as [s' [o [[]|e|]]]; exact H.
Qed.
Record Trunc (i off : Z) (W W' : world) : Prop := mkTr {
  t_inv : Inv W';
  t_ino : forall j, j <> i -> w_ino W' j = w_ino W j;
  t_ty2 : fi_ty2 (w_ino W' i) = fi_ty2 (w_ino W i);
  t_oth : forall j x, j <> i -> 0 <= x -> content W' j x = content W j x;
  t_low : forall x, 0 <= x < off -> content W' i x = content W i x }.
Lemma trunc_loss : forall i off W W1 W2, Trunc i off W W1 -> off <= 0 -> Loss i W1 W2 -> Trunc i off W W2.
Proof.
  intros i off W W1 W2 [A B C D E] H [A' B' C' D' E' F']. constructor; try congruence; try assumption.
  - intros j N. rewrite B', B by exact N. reflexivity.
  - intros j x N X. rewrite F', D by assumption. reflexivity.
  - intros x Hx. lia.
Qed.
Lemma check_io_err : forall off len, check_io_range off len <> ENOENT.
Proof.
  intros off len. unfold check_io_range, EINVAL, EFBIG, EOVERFLOW, ENOENT. destruct (off <? 0); [lia|]. destruct (FILE_SIZE_MAX <? off); [lia|].
  destruct (FILE_SIZE_MAX <? len); [lia|]. destruct (off + len <? off); lia.
Qed.
Lemma sp_do_truncate : forall W i off, Inv W -> refs1 W ->
  spec W (do_truncate i off)
    (fun _ W' => 0 <= off <= FILE_SIZE_MAX /\ Trunc i off W W' /\ refs1 W' /\ (forall x, off <= x -> content W' i x = 0) /\
                 fi_size (w_ino W' i) = off /\ fi_span (w_ino W' i) = off)
    (EW (fun W' => Trunc i off W W' /\ fi_size (w_ino W' i) = fi_size (w_ino W i) /\ fi_span (w_ino W' i) = fi_span (w_ino W i) /\
                   (off <> 0 -> refs1 W') /\ (W' = W \/ 0 <= off <= FILE_SIZE_MAX))).
Proof.
  intros W i off I R. unfold do_truncate. sp_ino.
  assert (T0 : Trunc i off W W) by (constructor; auto).
  eapply sp_bind; [apply sp_check; intro N; split; [apply check_io_err|auto 8]|]. cbv beta. intros [] W' [-> C].
  destruct (check_range_ok off (if off <? fi_span (w_ino W i) then fi_span (w_ino W i) - off else 0)) as [R1 _]; [destruct (off <? fi_span (w_ino W i)) eqn:X; lia|exact C|].
  eapply sp_bind; [eapply sp_conseq; [apply (sp_tree_end W i I)|intros te W' X; exact X|intros e W' [Ne ->]; split; [exact Ne|auto 8]]|].
  cbv beta. intros te W' (-> & Hte & Et). set (end_ := Z.max (Z.max off (heads_end (w_ino W i))) te).
  assert (Eff_tr : forall W', Eff i off end_ W W' -> Trunc i off W W').
  { intros W' E. constructor; try apply E. intros x Hx. apply (e_out _ _ _ _ _ E); lia. }
  eapply sp_bind with (Q := fun _ W1 => Eff i off end_ W W1 /\ (forall x, off <= x -> content W1 i x = 0)).
  { eapply sp_conseq; [apply (sp_runL W _ (Upd i zer off end_ W) (fun e W' => e <> ENOENT /\ Eff i off end_ W W'))| |].
    - eapply sl_conseq; [apply (sl_discard_data false W i off end_ I); lia|intros o W' [X _]; exact X|]. intros o e W' (Ne & _ & X). split; [exact Ne|exact X].
    - cbv beta. intros _ W1 [E V]. split; [exact E|]. intros x Hx. destruct (Z_lt_dec x end_) as [L|G]; [apply V; lia|].
      rewrite (e_out _ _ _ _ _ E) by lia. apply nodata_zero.
      assert (D : kind_of (fi_ty2 (w_ino W i)) x = TREE \/ kind_of (fi_ty2 (w_ino W i)) x <> TREE) by (destruct (kind_of (fi_ty2 (w_ino W i)) x); [right|right|left]; congruence).
      destruct D as [D|D]; [apply Et; [lia|exact D]|apply past_heads; [lia|lia|exact D]].
    - intros e W' [Ne E]. split; [exact Ne|]. split; [apply Eff_tr, E|]. split; [apply E|]. split; [apply E|]. split; [intros _; apply E, R|right; lia]. }
  cbv beta. intros [] W1 [E1 Z1]. pose proof (e_inv _ _ _ _ _ E1) as I1. pose proof (e_ref _ _ _ _ _ E1 R) as Rf1.
  eapply sp_bind with (Q := fun _ W2 => Trunc i off W W2 /\ refs1 W2 /\ (forall x, off <= x -> content W2 i x = 0)).
  { destruct (off =? 0) eqn:O.
    - eapply sp_conseq; [apply (sp_drop_all W1 i I1 Rf1)| |].
      + cbv beta. intros _ W2 (L & Rf & Nd & _). split; [apply (trunc_loss i off W W1); [apply Eff_tr, E1|lia|exact L]|].
        split; [apply Rf, Rf1|]. intros x Hx. apply nodata_zero, Nd. lia.
      + intros e W' [Ne L]. split; [exact Ne|]. split; [apply (trunc_loss i off W W1); [apply Eff_tr, E1|lia|exact L]|].
        rewrite (l_size _ _ _ L), (l_span _ _ _ L). split; [apply E1|]. split; [apply E1|]. split; [lia|right; lia].
    - apply sp_ret. split; [apply Eff_tr, E1|]. split; assumption. }
  cbv beta. intros [] W2 (T2 & Rf2 & Z2). sp_ino. eapply sp_conseq; [apply sp_put_ino| |intros e W' X; exact X].
  cbv beta. intros [] W3 ->. destruct (set_size_same W2 i off off (t_inv _ _ _ _ T2)) as (I3 & C3 & Ty3). set (W3 := set_ino W2 i _) in *.
  destruct (size_val W2 i off off) as [S1 S2]. fold W3 in S1, S2. split; [lia|]. split; [|split; [|split; [|split; assumption]]].
  - destruct T2 as [A B C0 D E]. constructor.
    + exact I3.
    + intros j N. unfold W3. cbn [set_ino w_ino]. rewrite fset_other by exact N. apply B, N.
    + rewrite Ty3. exact C0.
    + intros j x N Hx. rewrite C3. apply D; assumption.
    + intros x Hx. rewrite C3. apply E, Hx.
  - intros a n Hn. exact (Rf2 a n Hn).
  - intros x Hx. rewrite C3. apply Z2, Hx.
Qed.

(* ---- fallocate ---- *)

Lemma sp_do_fallocate : forall W i mode off len, Inv W -> 0 <= len ->
  spec W (do_fallocate i mode off len)
    (fun _ W' => 0 <= off /\ off + len <= FILE_SIZE_MAX /\
       ((Z.ldiff mode FL_KEEP_SIZE = 0 /\ Mod i 0 0 W W') \/
        (Z.ldiff mode FL_KEEP_SIZE <> 0 /\ Mod i off (off + len) W W' /\ forall x, off <= x < off + len -> content W' i x = 0)) /\
       fi_size (w_ino W' i) = (if fl_has mode FL_KEEP_SIZE then fi_size (w_ino W i) else Z.max (off + len) (fi_size (w_ino W i))) /\
       fi_span (w_ino W' i) = Z.max (off + len) (fi_span (w_ino W i)))
    (EW (fun W' => fi_size (w_ino W' i) = fi_size (w_ino W i) /\ fi_span (w_ino W' i) = fi_span (w_ino W i) /\ (W' = W \/
       (0 <= off /\ off + len <= FILE_SIZE_MAX /\ Mod i (if Z.ldiff mode FL_KEEP_SIZE =? 0 then 0 else off) (if Z.ldiff mode FL_KEEP_SIZE =? 0 then 0 else off + len) W W')))).
Proof.
  intros W i mode off len I H0. unfold do_fallocate.
  eapply sp_bind; [apply sp_check; intro N; split; [apply check_io_err|auto]|]. cbv beta. intros [] W' [-> C1].
  destruct (check_range_ok off len H0 C1) as [R1 R2].
  eapply sp_bind; [apply sp_check; intros N; (split; [|auto]); unfold check_io_end, EINVAL, EFBIG, ENOENT in *;
    destruct (off + len <? 0); [lia|]; destruct (FILE_SIZE_MAX <? off + len); lia|].
  cbv beta. intros [] W' [-> C2].
  assert (R3 : off + len <= FILE_SIZE_MAX).
  { unfold check_io_end, EINVAL, EFBIG in C2. destruct (off + len <? 0) eqn:X; [discriminate|]. destruct (FILE_SIZE_MAX <? off + len) eqn:Y; [discriminate|]. lia. }
  eapply sp_bind; [apply sp_check; intros N; (split; [|auto])|].
  { unfold check_fl_mode, EOPNOTSUPP, ENOENT in *. repeat (destruct (_ && _) || destruct (negb _) || destruct (fl_has _ _); try lia). }
  cbv beta. intros [] W' [-> C3].
  set (lo := if Z.ldiff mode FL_KEEP_SIZE =? 0 then 0 else off). set (hi := if Z.ldiff mode FL_KEEP_SIZE =? 0 then 0 else off + len).
  assert (Dd : forall zm, Z.ldiff mode FL_KEEP_SIZE =? 0 = false -> spec W (runL (discard_data zm i off (off + len)))
     (fun _ W1 => Eff i lo hi W W1 /\ (Z.ldiff mode FL_KEEP_SIZE <> 0 -> forall x, off <= x < off + len -> content W1 i x = 0))
     (EW (fun W' => fi_size (w_ino W' i) = fi_size (w_ino W i) /\ fi_span (w_ino W' i) = fi_span (w_ino W i) /\ (W' = W \/ (0 <= off /\ off + len <= FILE_SIZE_MAX /\ Mod i lo hi W W'))))).
  { intros zm X. unfold lo, hi. rewrite X.
    eapply sp_conseq; [apply (sp_runL W _ (Upd i zer off (off + len) W) (fun e W' => e <> ENOENT /\ Eff i off (off + len) W W'))| |].
    - eapply sl_conseq; [apply (sl_discard_data zm W i off (off + len) I); lia|intros o W' [Y _]; exact Y|]. intros o e W' (Ne & _ & Y). split; [exact Ne|exact Y].
    - cbv beta. intros _ W1 [E V]. split; [exact E|]. intros _ x Hx. apply V, Hx.
    - intros e W' [Ne E]. split; [exact Ne|]. split; [apply E|]. split; [apply E|]. right. split; [lia|]. split; [lia|]. apply mod_eff, E. }
  eapply sp_bind with (Q := fun _ W1 => Eff i lo hi W W1 /\ (Z.ldiff mode FL_KEEP_SIZE <> 0 -> forall x, off <= x < off + len -> content W1 i x = 0)).
  { destruct (Z.ldiff mode FL_KEEP_SIZE =? 0) eqn:X.
    - eapply sp_conseq; [apply (sp_runL W _ (Eff i 0 0 W) (EW (Eff i 0 0 W)))| |].
      + apply sl_reserve; [exact I|lia|lia].
      + cbv beta. intros _ W1 E. split; [exact E|]. lia.
      + intros e W' [Ne E]. split; [exact Ne|]. split; [apply E|]. split; [apply E|]. right. split; [lia|]. split; [lia|]. apply mod_eff, E.
    - destruct (fl_has mode FL_PUNCH_HOLE); [apply Dd; reflexivity|]. destruct (fl_has mode FL_ZERO_RANGE); [apply Dd; reflexivity|].
      apply sp_fail. split; [unfold EOPNOTSUPP, ENOENT; lia|auto]. }
  cbv beta. intros [] W1 [E1 V1]. sp_ino. eapply sp_conseq; [apply sp_put_ino| |intros e W' X; exact X].
  cbv beta. intros [] W3 ->.
  set (sz := if fl_has mode FL_KEEP_SIZE then fi_size (w_ino W1 i) else Z.max (off + len) (fi_size (w_ino W1 i))). set (sp := Z.max (off + len) (fi_span (w_ino W1 i))).
  destruct (set_size_same W1 i sz sp (e_inv _ _ _ _ _ E1)) as (_ & C & _). destruct (size_val W1 i sz sp) as [S1 S2].
  split; [lia|]. split; [lia|]. split; [|split].
  - pose proof (mod_size i lo hi W W1 sz sp (mod_eff _ _ _ _ _ E1)) as Md. unfold lo, hi in Md. destruct (Z.ldiff mode FL_KEEP_SIZE =? 0) eqn:X.
    + left. split; [lia|exact Md].
    + right. split; [lia|]. split; [exact Md|]. intros x Hx. rewrite C. apply V1; [lia|exact Hx].
  - rewrite S1. unfold sz. rewrite (e_size _ _ _ _ _ E1). reflexivity.
  - rewrite S2. unfold sp. rewrite (e_span _ _ _ _ _ E1). reflexivity.
Qed.
