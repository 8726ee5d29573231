(* Triples for copy_file_range: copies whose source leaves are written and whose destination leaves
   are not shared *)
From Verif Require Import Base AddrModel FileModel FileTree FileInv FileSpec FileLeaf FileRead FileGrow FileLoops FileOps FileSeek FileLseek.

(* ---- states of the leaves of a range ---- *)

(* the leaf of an offset has been written *)
Definition wr_at (W : world) (i o : Z) : Prop :=
  forall t a b, place W i o = Some (t, a) -> w_blk W t a = Some b -> b_unwr b = false.
(* the leaf of an offset is held by this offset only *)
Definition sole_at (W : world) (i o : Z) : Prop :=
  forall t a b, place W i o = Some (t, a) -> w_blk W t a = Some b -> b_ref b = 1.

Lemma place_key : forall W i o q, key_of W i o = Some q -> place W i o = hold W q.
Proof. intros W i o q E. unfold place. rewrite E. reflexivity. Qed.
Lemma keff_place : forall i q0 lo hi W W' j o, Inv W -> KEff i q0 lo hi W W' -> key_of W j o <> Some q0 -> place W' j o = place W j o.
Proof.
  intros i q0 lo hi W W' j o I K N. unfold place. rewrite (keff_key i q0 lo hi W W' j o I K).
  destruct (key_of W j o) as [q|]; [|reflexivity]. apply K. congruence.
Qed.
Lemma keff_place0 : forall i q0 lo hi W W' j o, Inv W -> KEff i q0 lo hi W W' -> key_of W j o = Some q0 -> place W' j o = hold W' q0.
Proof. intros i q0 lo hi W W' j o I K E. apply place_key. rewrite (keff_key i q0 lo hi W W' j o I K). exact E. Qed.
Lemma keff_wr : forall i q0 lo hi W W' j o, Inv W -> KEff i q0 lo hi W W' -> key_of W j o <> Some q0 -> wr_at W j o -> wr_at W' j o.
Proof.
  intros i q0 lo hi W W' j o I K N H t a b' Hp Hb'. rewrite (keff_place _ _ _ _ _ _ j o I K N) in Hp.
  unfold place in Hp. destruct (key_of W j o) as [q|] eqn:E; [|discriminate].
  destruct (w_blk W t a) as [b|] eqn:Hb; [|exfalso; apply (ki_blk W (proj2 I) q t a Hp Hb)].
  destruct (k_blk _ _ _ _ _ _ K q t a b b') as [A _]; try assumption; [congruence|]. rewrite A.
  apply (H t a b); [|exact Hb]. rewrite (place_key W j o q E). exact Hp.
Qed.
(* the holder gains no leaf which was held before *)
Definition no_gain (q0 : key) (W W' : world) : Prop :=
  forall q t a, q <> q0 -> hold W q = Some (t, a) -> hold W' q0 = Some (t, a) -> hold W q0 = Some (t, a).
Lemma keff_sole : forall i q0 lo hi W W' j o, Inv W -> KEff i q0 lo hi W W' -> no_gain q0 W W' ->
  key_of W j o <> Some q0 -> sole_at W j o -> sole_at W' j o.
Proof.
  intros i q0 lo hi W W' j o I K G N H t a b' Hp Hb'. rewrite (keff_place _ _ _ _ _ _ j o I K N) in Hp.
  unfold place in Hp. destruct (key_of W j o) as [q|] eqn:E; [|discriminate]. assert (Nq : q <> q0) by congruence.
  destruct (w_blk W t a) as [b|] eqn:Hb; [|exfalso; apply (ki_blk W (proj2 I) q t a Hp Hb)].
  destruct (k_blk _ _ _ _ _ _ K q t a b b') as [_ A]; try assumption.
  assert (R : b_ref b = 1) by (apply (H t a b); [rewrite (place_key W j o q E); exact Hp|exact Hb]).
  pose proof (ki_one W' (proj2 (k_inv _ _ _ _ _ _ K)) t a b' Hb') as [One _].
  destruct (pair_dec (hold W' q0) (Some (t, a))) as [X|X].
  - exfalso. apply Nq. symmetry. apply (sole_holder W q q0 t a b); try assumption; [apply I|]. apply (G q t a); assumption.
  - rewrite (dv_0 _ _ _ X) in A. assert (0 <= dv (hold W q0) t a); [|lia].
    unfold dv. destruct (hold W q0) as [[t' a']|]; [|lia]. destruct (_ && _); lia.
Qed.
Lemma ge_wr : forall i W W' j o, GEff i W W' -> 0 <= o -> wr_at W j o -> wr_at W' j o.
Proof.
  intros i W W' j o G Ho H t a b Hp Hb. rewrite (ge_place _ _ _ G) in Hp by exact Ho. rewrite (ge_blk _ _ _ G) in Hb. apply (H t a b Hp Hb).
Qed.
Lemma ge_sole : forall i W W' j o, GEff i W W' -> 0 <= o -> sole_at W j o -> sole_at W' j o.
Proof.
  intros i W W' j o G Ho H t a b Hp Hb. rewrite (ge_place _ _ _ G) in Hp by exact Ho. rewrite (ge_blk _ _ _ G) in Hb. apply (H t a b Hp Hb).
Qed.

(* ---- finding the leaf of a position ---- *)

Definition pos_ref (W : world) (i off end_ : Z) (r : flref) : Prop :=
  match key_of W i off with
  | Some q => r = ref_at W i off end_ q
  | None => r = flref_setup (fi_ty2 (w_ino W i)) None None off end_
  end.
Lemma sp_fpos_rec : forall W i off end_, tree_inv W -> kind_of (fi_ty2 (w_ino W i)) off = TREE -> forall d a n, w_node W a = Some n -> n_ino n = i ->
  n_height n <= Z.of_nat d + 1 ->
  spec W (fpos_rec d i off end_ a)
    (fun r W' => W' = W /\ exists p, walk d W a off = Some p /\ exists m, w_node W p = Some m /\ n_height m = 2 /\ n_inrange m off = true /\
       r = flref_setup (fi_ty2 (w_ino W i)) (Some p) (child_at m (slot_of m off)) off end_)
    (enoent_if W (walk d W a off = None)).
Proof.
  intros W i off end_ T Kt. induction d as [|d IH]; intros a n Ha In Hd.
  - destruct (ti_shape W T a n Ha) as [_ Sn]. pose proof (sh_h n Sn). lia.
  - destruct (ti_shape W T a n Ha) as [_ Sn]. pose proof (sh_h n Sn) as H5.
    rewrite walk_S, Ha. cbn [fpos_rec]. sp_node Ha. destruct (n_inrange n off) eqn:R; cbn [negb].
    2: { apply sp_fail. split; [reflexivity|]. intros _. reflexivity. }
    eapply sp_bind; [apply (sp_isbottom W n _ H5)|]. cbv beta. intros v W' [-> ->].
    destruct (n_height n <=? 2) eqn:B.
    + sp_ino. apply sp_ret. split; [reflexivity|]. exists a. split; [reflexivity|]. exists n. repeat split; try assumption. lia.
    + pose proof (proj1 (inrange_iff n off) R) as R'. destruct (child_at n (slot_of n off)) as [[t c]|] eqn:C.
      * apply child_at_some in C. destruct C as (Hc & _ & ->).
        destruct (child_range W a n off T Ha ltac:(lia) R' Hc) as (m & Hm & Im & Hm1 & Rm).
        eapply sp_bind.
        { eapply sp_conseq; [apply (sp_stage_node W i t (n_child n (slot_of n off)) m Hm); [congruence|lia]|intros x W' X; exact X|].
          intros e W' [N ->]. split; [reflexivity|]. intro X. contradiction. }
        cbv beta. intros x W' [-> ->]. apply (IH _ m); try assumption; lia.
      * eapply sp_bind with (Q := fun _ _ => False); [|intros x W' []].
        cbn [stage_node]. apply sp_fail. split; [reflexivity|]. intros _. reflexivity.
Qed.
Lemma sp_resolve_fpos : forall W i off end_, Inv W -> 0 <= off < end_ ->
  spec W (resolve_fpos i off end_) (fun r W' => W' = W /\ pos_ref W i off end_ r) (here W).
Proof.
  intros W i off end_ I H. pose proof (proj1 I) as T. unfold resolve_fpos. sp_ino. set (ty2 := fi_ty2 (w_ino W i)).
  assert (Hd : forall k, k <> TREE -> kind_of ty2 off = k -> spec W (resolve_head k i off end_) (fun r W' => W' = W /\ pos_ref W i off end_ r) (here W)).
  { intros k N E. eapply sp_conseq; [apply (sp_resolve_head W i off end_ k ltac:(lia) E N)| |intros e W' X; exact X].
    intros r W' [-> ->]. split; [reflexivity|]. unfold pos_ref. rewrite (key_of_head W i off k E N). reflexivity. }
  destruct (has_head_io HD1 ty2 off end_) eqn:H1.
  { apply has_head_iff in H1; [|lia|discriminate]. apply Hd; [discriminate|apply H1]. }
  destruct (has_head_io HD2 ty2 off end_) eqn:H2.
  { apply has_head_iff in H2; [|lia|discriminate]. apply Hd; [discriminate|apply H2]. }
  assert (Kt : kind_of ty2 off = TREE).
  { apply not_heads_tree; intro E; [assert (X : has_head_io HD1 ty2 off end_ = true)|assert (X : has_head_io HD2 ty2 off end_ = true)];
    try (apply has_head_iff; [lia|discriminate|split; [lia|exact E]]); congruence. }
  eapply sp_bind with (Q := fun x W' => W' = W /\ match x with
     | Some r => exists p, bottom W i off = Some p /\ exists m, w_node W p = Some m /\ n_height m = 2 /\ n_inrange m off = true /\
                 r = flref_setup ty2 (Some p) (child_at m (slot_of m off)) off end_
     | None => bottom W i off = None end).
  { eapply sp_or_none with (Q := fun r W' => W' = W /\ exists p, bottom W i off = Some p /\ exists m, w_node W p = Some m /\ n_height m = 2 /\ n_inrange m off = true /\
                 r = flref_setup ty2 (Some p) (child_at m (slot_of m off)) off end_) (E := enoent_if W (bottom W i off = None)).
    - unfold has_root, bottom, root_of. destruct (fi_slot (w_ino W i) 0) as [[t r]|] eqn:Er; [|apply sp_fail; split; [reflexivity|intros _; reflexivity]].
      destruct (ti_root W T i t r Er) as (-> & n & Hn & In & Hb). rewrite Z.eqb_refl. cbn [negb].
      destruct (ti_shape W T r n Hn) as [_ Sn]. pose proof (sh_h n Sn).
      eapply sp_bind.
      { unfold stage_root. sp_ino. rewrite Er. eapply sp_conseq; [apply (sp_stage_node W i LT_FTNODE r n Hn In)|intros x W' X; exact X|].
        - apply Sn.
        - intros e W' [N ->]. split; [reflexivity|]. intro X. contradiction. }
      cbv beta. intros x W' [-> ->].
      pose proof (sp_fpos_rec W i off end_ T Kt 6 r n Hn In ltac:(lia)) as Sp.
      rewrite (walk_fuel W off T 5 6 r n Hn ltac:(lia) ltac:(lia)). exact Sp.
    - intros r W' [-> X]. split; [reflexivity|exact X].
    - intros W' [-> X]. split; [reflexivity|apply X; reflexivity].
    - intros e W' N [-> _]. split; [exact N|reflexivity]. }
  cbv beta. intros x W' [-> X]. unfold pos_ref, key_of. fold ty2. rewrite Kt. destruct x as [r|].
  - destruct X as (p & B & m & Hm & H2' & R & ->). rewrite B. apply sp_ret. split; [reflexivity|].
    destruct (hold_tree W i off p T B) as (n & Hn & _ & _ & _ & _ & Hh & _). assert (n = m) by congruence. subst n.
    unfold ref_at. rewrite Hh. reflexivity.
  - rewrite X. apply sp_ret. split; reflexivity.
Qed.

(* ---- one leaf ---- *)

Record lref (W : world) (i off end_ : Z) (q : key) (r : flref) : Prop := mkLref {
  lr_like : rlike W i off end_ q r;
  lr_leaf : fl_leaf r = ksize q;
  lr_shared : fl_shared r = false }.
Lemma lref_at : forall W i off end_ q, 0 <= off -> key_of W i off = Some q -> lref W i off end_ q (ref_at W i off end_ q).
Proof.
  intros W i off end_ q H E. constructor; [apply ref_like; assumption| |reflexivity].
  cbn [ref_at flref_setup fl_leaf]. unfold ksize. rewrite (key_of_type W i off q H E). reflexivity.
Qed.
Lemma lref_laddr : forall W i off end_ q r, lref W i off end_ q r -> lref W i off end_ q (fl_set_laddr r true).
Proof. intros W i off end_ q r [[A B C D E F] G H]. constructor; [constructor|..]; assumption. Qed.
Lemma lref_hold : forall W W' i off end_ q r, lref W i off end_ q r -> hold W' q = hold W q ->
  fi_ty2 (w_ino W' i) = fi_ty2 (w_ino W i) -> lref W' i off end_ q r.
Proof. intros W W' i off end_ q r [A B C] H T. constructor; [apply (rlike_keff W); assumption|assumption|assumption]. Qed.

Definition sole (W : world) (q : key) : Prop := forall t a b, hold W q = Some (t, a) -> w_blk W t a = Some b -> b_ref b = 1.
Definition kept (q : key) (W W' : world) : Prop :=
  hold W' q = hold W q /\
  forall t a b b', hold W q = Some (t, a) -> w_blk W t a = Some b -> w_blk W' t a = Some b' -> b_ref b' = 1 /\ b_unwr b' = b_unwr b.
Lemma sp_discard_sole : forall W i off end_ q r, Inv W -> 0 <= off < end_ -> key_of W i off = Some q -> rlike W i off end_ q r ->
  fl_shared r = false -> sole W q ->
  let p := off mod ksize q in let len := clip q off end_ in
  spec W (discard_by false i r off end_)
    (fun _ W' => KEff i q p (p + len) W W' /\ (forall k, p <= k < p + len -> kval W' q k = 0) /\
       (hold W' q = None \/ (off_is_partial off end_ (ktype q) = true /\ kept q W W'))) (EW (KEff i q p (p + len) W)).
Proof.
  intros W i off end_ q r I H E Rl Sh So p len.
  unfold discard_by. rewrite (rl_addr _ _ _ _ _ _ Rl). destruct (hold W q) as [[t a]|] eqn:Hq.
  2: { apply sp_ret. split; [apply keff_refl, I|]. split; [|left; exact Hq]. intros k _. unfold kval. rewrite Hq. reflexivity. }
  pose proof (ki_type W (proj2 I) q t a Hq) as Et. pose proof (ki_blk W (proj2 I) q t a Hq) as Hb.
  destruct (w_blk W t a) as [b|] eqn:B; [|congruence]. clear Hb. pose proof (So t a b Hq B) as R1.
  assert (D : dsize t) by (rewrite Et; apply ktype_dsize).
  assert (Sz : ksize q = ltype_size t) by (unfold ksize; rewrite Et; reflexivity).
  assert (Rp : 0 <= p /\ 0 < len /\ p + len <= ltype_size t).
  { unfold p, len, clip. rewrite Sz. destruct D as [D|[D|D]]; rewrite D; lia. }
  eapply sp_bind.
  { eapply sp_conseq; [apply (sp_detect W i off end_ q r t a b I ltac:(lia) E Rl Sh Hq B)|intros x W' X; exact X|].
    intros e W' [N ->]. split; [exact N|apply keff_refl, I]. }
  cbv beta. intros r1 W' (-> & Rl1 & Sh1). rewrite R1 in Sh1. change (1 <? 1) with false in Sh1. rewrite (rl_partial _ _ _ _ _ _ Rl1).
  destruct (off_is_partial off end_ (ktype q)) eqn:P.
  - unfold unshare. rewrite (rl_addr _ _ _ _ _ _ Rl1), Hq, Sh1. cbn [negb orb].
    eapply sp_bind; [apply sp_ret with (Q := fun r' W' => W' = W /\ r' = r1); split; reflexivity|]. cbv beta. intros r2 W' [-> ->].
    rewrite (rl_addr _ _ _ _ _ _ Rl1), Hq, (rl_pos _ _ _ _ _ _ Rl1).
    rewrite in_data_spec, len_spec by (assumption || lia). rewrite <- Sz. fold p. fold (clip q off end_). fold len.
    eapply sp_conseq; [apply (sp_zero_range W t a p len b B); lia| |].
    + cbv beta. intros [] W2 ->. set (b2 := mkBlk _ _ _). split; [|split].
      * apply (keff_store W i q t a b b2); try assumption.
        intros k Rk Nk. unfold bval, b2. cbn [b_unwr b_data]. unfold put_range.
        replace ((p <=? k) && (k <? p + len)) with false by lia. reflexivity.
      * intros k Hk. rewrite (kval_held _ q t a b2); [|rewrite hold_blk; exact Hq|apply blk_same].
        unfold bval, b2. cbn [b_unwr b_data]. destruct (b_unwr b); [reflexivity|]. unfold put_range.
        replace ((p <=? k) && (k <? p + len)) with true by lia. reflexivity.
      * right. split; [reflexivity|]. split; [apply hold_blk|]. intros t0 a0 b0 b1 H0 H1 H2.
        assert (t0 = t /\ a0 = a) as [-> ->] by (rewrite Hq in H0; injection H0; auto). rewrite blk_same in H2.
        assert (b1 = b2) by congruence. assert (b0 = b) by congruence. subst b1 b0. split; [exact R1|reflexivity].
    + intros e W' [N ->]. split; [exact N|apply keff_refl, I].
  - rewrite partial_spec in P by (lia || apply ktype_dsize). fold (ksize q) in P.
    assert (Pl : p = 0 /\ len = ksize q).
    { unfold p, len, clip. rewrite Sz in *. destruct D as [D|[D|D]]; rewrite D in *; lia. }
    destruct Pl as [-> Pl]. rewrite Pl. cbn [Z.add] in *.
    rewrite (rl_addr _ _ _ _ _ _ Rl1), Hq, Sh1. cbn [negb andb].
    eapply sp_conseq; [apply (sp_drop_leaf W i off end_ q r1 t a b I ltac:(lia) E Rl1 Hq B)| |intros e W' Y; exact Y].
    cbv beta. intros [] W1 (K1 & H1). split; [exact K1|]. split; [|left; exact H1]. intros k _. unfold kval. rewrite H1. reflexivity.
Qed.

Lemma sp_pre_written : forall W r len t a b, fl_addr r = Some (t, a) -> w_blk W t a = Some b -> b_unwr b = false ->
  spec W (pre_write_leaf r len) (fun x W' => W' = W /\ fst x = pre_ref r len /\ snd x = false) (here W).
Proof.
  intros W r len t a b Hr B U. unfold pre_write_leaf. fold (pre_ref r len).
  assert (Hr' : fl_addr (pre_ref r len) = Some (t, a)) by (unfold pre_ref; destruct (0 <? len); exact Hr).
  unfold unwritten_of. rewrite Hr'. eapply sp_bind; [apply (sp_test_unwritten W t a b B)|]. cbv beta. intros u W' [-> ->].
  rewrite U. cbn [negb orb]. apply sp_ret. auto.
Qed.
Lemma pre_addr : forall r len, fl_addr (pre_ref r len) = fl_addr r.
Proof. intros. unfold pre_ref. destruct (0 <? len); reflexivity. Qed.

Lemma sp_copy_leaf : forall W i qs qd rs rd off_s off_d len ts a_s bs td ad bd, Inv W -> 0 <= off_s -> 0 <= off_d -> 0 < len ->
  hold W qs = Some (ts, a_s) -> w_blk W ts a_s = Some bs -> b_unwr bs = false -> fl_addr rs = Some (ts, a_s) ->
  hold W qd = Some (td, ad) -> w_blk W td ad = Some bd -> b_ref bd = 1 -> fl_addr rd = Some (td, ad) -> fl_leaf rd = ksize qd ->
  let ps := off_s mod ksize qs in let pd := off_d mod ksize qd in
  ps + len <= ksize qs -> pd + len <= ksize qd ->
  spec W (copy_leaf rs off_s rd off_d len)
    (fun _ W' => KEff i qd pd (pd + len) W W' /\ (forall k, 0 <= k < len -> kval W' qd (pd + k) = kval W qs (ps + k)) /\
                 hold W' qd = Some (td, ad) /\ exists b', w_blk W' td ad = Some b' /\ b_ref b' = 1 /\ b_unwr b' = false)
    (EW (KEff i qd pd (pd + len) W)).
Proof.
  intros W i qs qd rs rd off_s off_d len ts a_s bs td ad bd I Hs Hd Hl Hqs Hbs Us Ars Hqd Hbd Rd Ard Lrd ps pd Ls Ld.
  pose proof (ki_type W (proj2 I) qs ts a_s Hqs) as Ets. pose proof (ki_type W (proj2 I) qd td ad Hqd) as Etd.
  assert (Ds : dsize ts) by (rewrite Ets; apply ktype_dsize). assert (Dd : dsize td) by (rewrite Etd; apply ktype_dsize).
  assert (Szs : ksize qs = ltype_size ts) by (unfold ksize; rewrite Ets; reflexivity).
  assert (Szd : ksize qd = ltype_size td) by (unfold ksize; rewrite Etd; reflexivity).
  assert (Ps : (if len =? ltype_size ts then 0 else off_in_data off_s ts) = ps).
  { unfold ps. rewrite in_data_spec by assumption. rewrite <- Szs. destruct (len =? ksize qs) eqn:X; [|reflexivity]. unfold ps in Ls. pose proof (ktype_nonzero qs).
    pose proof (Z.mod_pos_bound off_s (ksize qs)). lia. }
  assert (Pd : (if len =? ltype_size td then 0 else off_in_data off_d td) = pd).
  { unfold pd. rewrite in_data_spec by assumption. rewrite <- Szd. destruct (len =? ksize qd) eqn:X; [|reflexivity]. unfold pd in Ld. pose proof (ktype_nonzero qd).
    pose proof (Z.mod_pos_bound off_d (ksize qd)). lia. }
  assert (P0 : 0 <= ps /\ 0 <= pd).
  { unfold ps, pd. pose proof (ktype_nonzero qs). pose proof (ktype_nonzero qd). pose proof (Z.mod_pos_bound off_s (ksize qs)). pose proof (Z.mod_pos_bound off_d (ksize qd)). lia. }
  unfold copy_leaf. eapply sp_bind.
  { eapply sp_conseq; [apply (sp_pre_write W rd len td ad bd Ard Hbd Dd)|intros x W' X; exact X|].
    intros e W' [N ->]. split; [exact N|apply keff_refl, I]. }
  cbv beta. intros [rd' u] W1 (Er & Eu & Ew & Eb). cbn [fst snd] in *. subst rd' u. set (b1 := pre_blk bd (pre_ref rd len) td) in *.
  assert (K1 : KEff i qd pd (pd + len) W W1).
  { destruct Ew as [->| ->]; [apply keff_refl, I|]. apply (keff_store W i qd td ad bd); try assumption.
    - unfold b1. rewrite pre_blk_ref. exact Rd.
    - intros k _ _. apply pre_blk_val. }
  assert (Hh1 : forall q, hold W1 q = hold W q) by (intro q; destruct Ew as [->| ->]; [reflexivity|apply hold_blk]).
  assert (R1 : b_ref b1 = 1) by (unfold b1; rewrite pre_blk_ref; exact Rd).
  assert (Hbs1 : w_blk W1 ts a_s = Some bs).
  { destruct (pair_dec (Some (ts, a_s)) (Some (td, ad))) as [X|X].
    - assert (ts = td /\ a_s = ad) as [-> ->] by (injection X; auto). assert (bd = bs) by congruence. subst bd.
      rewrite Eb. unfold b1, pre_blk. rewrite Us. reflexivity.
    - destruct Ew as [->| ->]; [exact Hbs|]. rewrite blk_at. destruct ((ts =? td) && (a_s =? ad)) eqn:Y; [|exact Hbs].
      exfalso. apply X. f_equal. f_equal; lia. }
  eapply sp_bind.
  { eapply sp_conseq; [apply (sp_pre_written W1 rs len ts a_s bs Ars Hbs1 Us)|intros x W' X; exact X|].
    intros e W' [N ->]. split; [exact N|exact K1]. }
  cbv beta. intros [rs' v] W' (-> & Ers & _). cbn [fst snd] in *. subst rs'.
  unfold copy_data_leaf. rewrite !pre_addr, Ars, Ard.
  assert (He : forall e W', here W1 e W' -> EW (KEff i qd pd (pd + len) W) e W') by (intros e W' [N ->]; split; [exact N|exact K1]).
  eapply sp_bind; [eapply sp_conseq; [apply (sp_stage_fileaf W1 ts a_s bs Hbs1)|intros x W' X; exact X|exact He]|]. cbv beta. intros x W' [-> ->].
  eapply sp_bind; [eapply sp_conseq; [apply (sp_stage_fileaf W1 td ad b1 Eb)|intros x W' X; exact X|exact He]|]. cbv beta. intros x W' [-> ->].
  rewrite Ps, Pd.
  eapply sp_bind.
  { unfold copy_bytes. sp_blk Hbs1. apply (sp_store W1 td ad pd len _ b1 Eb); lia. }
  cbv beta. intros [] W2 ->.
  set (b2 := mkBlk (put_range (b_data b1) pd len (fun k => b_data bs (ps + k))) (b_ref b1) (b_unwr b1)).
  assert (Hq1 : hold W1 qd = Some (td, ad)) by (rewrite Hh1; exact Hqd).
  assert (K2 : KEff i qd pd (pd + len) W1 (set_blk W1 td ad (Some b2))).
  { apply (keff_store W1 i qd td ad b1); try assumption; [apply K1|].
    intros k _ Nk. unfold bval, b2. cbn [b_unwr b_data]. unfold put_range.
    replace ((pd <=? k) && (k <? pd + len)) with false by lia. reflexivity. }
  assert (V : forall b3 W3, b_data b3 = b_data b2 -> b_unwr b3 = false -> hold W3 qd = Some (td, ad) -> w_blk W3 td ad = Some b3 ->
              forall k, 0 <= k < len -> kval W3 qd (pd + k) = kval W qs (ps + k)).
  { intros b3 W3 E1 E2 E3 E4 k Hk. rewrite (kval_held W3 qd td ad b3 _ E3 E4), (kval_held W qs ts a_s bs _ Hqs Hbs).
    unfold bval. rewrite E2, E1, Us. unfold b2. cbn [b_data]. unfold put_range.
    replace ((pd <=? pd + k) && (pd + k <? pd + len)) with true by lia. f_equal. lia. }
  assert (Hq2 : hold (set_blk W1 td ad (Some b2)) qd = Some (td, ad)) by (rewrite hold_blk; exact Hq1).
  destruct (b_unwr bd) eqn:U.
  - set (W2 := set_blk W1 td ad (Some b2)) in *.
    eapply sp_conseq; [apply (sp_set_unwritten W2 false td ad b2 (blk_same _ _ _ _))| |].
    + cbv beta. intros [] W3 ->. set (b3 := mkBlk (b_data b2) (b_ref b2) false).
      assert (K3 : KEff i qd pd (pd + len) W2 (set_blk W2 td ad (Some b3))).
      { apply (keff_store W2 i qd td ad b2 b3); try assumption; [apply K2|apply blk_same|].
        intros k Rk Nk. unfold bval, b3, b2. cbn [b_unwr b_data]. unfold put_range. replace ((pd <=? k) && (k <? pd + len)) with false by lia.
        unfold b1. rewrite pre_blk_unwr, U. unfold pre_blk. rewrite U. cbn [andb].
        assert (Fp : fl_partial (pre_ref rd len) = (len <? ksize qd)).
        { unfold pre_ref. replace (0 <? len) with true by lia. cbn [fl_set_partial fl_partial]. rewrite Lrd. reflexivity. }
        rewrite Fp. destruct (len <? ksize qd) eqn:Y; [|exfalso; apply Nk; lia].
        cbn [b_data]. unfold put_range. rewrite <- Szd. replace ((0 <=? k) && (k <? 0 + ksize qd)) with true by lia. reflexivity. }
      assert (H3 : hold (set_blk W2 td ad (Some b3)) qd = Some (td, ad)) by (rewrite hold_blk; exact Hq2).
      split; [apply (keff_trans _ _ _ _ _ _ _ K1), (keff_trans _ _ _ _ _ _ _ K2), K3|].
      split; [apply (V b3); try reflexivity; [exact H3|apply blk_same]|]. split; [exact H3|].
      exists b3. split; [apply blk_same|]. split; [exact R1|reflexivity].
    + intros e W' [N ->]. split; [exact N|]. apply (keff_trans _ _ _ _ _ _ _ K1 K2).
  - apply sp_ret. split; [apply (keff_trans _ _ _ _ _ _ _ K1 K2)|].
    assert (U2 : b_unwr b2 = false) by (unfold b2, b1; cbn [b_unwr]; rewrite pre_blk_unwr; exact U).
    split; [apply (V b2); try assumption; try reflexivity; apply blk_same|]. split; [exact Hq2|].
    exists b2. split; [apply blk_same|]. split; [exact R1|exact U2].
Qed.

(* ---- sharing a leaf ---- *)

Lemma hold_pos : forall W p s t a, hold W (KN p s) = Some (t, a) -> 0 <= a.
Proof.
  intros W p s t a H. cbn [hold] in H. destruct (w_node W p) as [n|]; [|discriminate]. destruct (_ && _); [|discriminate].
  apply child_at_some in H. destruct H as (H & _ & ->). apply has_child_iff, H.
Qed.
Lemma sp_share : forall W i off_d p qs rs rd t a b, Inv W -> bottom W i off_d = Some p -> hold W qs = Some (t, a) -> w_blk W t a = Some b ->
  b_unwr b = false -> t = LT_DATABK -> 0 <= a -> fl_addr rs = Some (t, a) -> fl_parent rd = Some p ->
  let qd := KN p (leaf_slot off_d) in hold W qd = None ->
  spec W (share_leaf rs i off_d rd)
    (fun _ W' => KEff i qd 0 65536 W W' /\ (forall k, kval W' qd k = kval W qs k) /\ hold W' qd = Some (t, a) /\ exists b', w_blk W' t a = Some b' /\ b_unwr b' = false)
    (EW (KEff i qd 0 65536 W)).
Proof.
  intros W i off_d p qs rs rd t a b I B Hqs Hb U Et Ha Ars Prd qd Hqd.
  destruct (hold_tree W i off_d p (proj1 I) B) as (n & Hn & H2 & In & R & Es & Hh & Hr).
  unfold share_leaf. rewrite Ars. eapply sp_bind.
  { eapply sp_conseq; [apply (sp_addref W t a b Hb)|intros x W' X; exact X|]. intros e W' [N ->]. split; [exact N|apply keff_refl, I]. }
  cbv beta. intros [] W1 ->. set (W1 := set_blk W t a _).
  assert (Hn1 : w_node W1 p = Some n) by exact Hn.
  unfold rebind_child. rewrite Prd. cbn [snd].
  eapply sp_bind with (Q := fun _ W' => W' = set_node W1 p (Some (assign_child n (slot_of n off_d) a))).
  { eapply sp_bind; [unfold bind_child; sp_node Hn1; apply sp_put_node|]. cbv beta. intros [] W2 ->. apply sp_ret. reflexivity. }
  cbv beta. intros _ W2 ->. set (W2 := set_node W1 p _).
  unfold update_iblocks. sp_ino. eapply sp_conseq; [apply sp_put_ino| |intros e W' X; exact X].
  cbv beta. intros [] W3 ->. set (W3 := set_ino W2 i _).
  set (b' := mkBlk (b_data b) (b_ref b + 1) (b_unwr b)).
  assert (Rb : Rebind W W3 i qd (Some (t, a)) (knk qd)).
  { apply (rebind_node W W3 i p n (leaf_slot off_d)); try assumption; [apply I|rewrite <- Es; exact R|split; assumption| | |].
    - intros j Nj. unfold W3. cbn [set_ino w_ino]. rewrite fset_other by exact Nj. reflexivity.
    - unfold W3. cbn [set_ino w_ino]. rewrite fset_same. cbn [W2 W1 set_node set_blk w_ino]. f_equal. f_equal. unfold knk. cbn [ktype qd]. rewrite Et. lia.
    - intro a'. unfold W3, W2, W1. cbn [set_node w_node set_ino set_blk voff]. unfold fset. rewrite Es. reflexivity. }
  assert (Bl : forall t' x, w_blk W3 t' x = if (t' =? t) && (x =? a) then Some b' else w_blk W t' x).
  { intros t' x. change (w_blk W3 t' x) with (w_blk W1 t' x). unfold W1. apply blk_at. }
  assert (Bt : w_blk W3 t a = Some b') by (rewrite Bl, !Z.eqb_refl; reflexivity).
  pose proof (ki_one W (proj2 I) t a b Hb) as One.
  split; [|split; [|split; [apply (rb_hold _ _ _ _ _ _ Rb)|exists b'; split; [exact Bt|exact U]]]].
  - apply (keff_rebind W W3 i qd _ _ 0 65536 I Rb).
    + cbn [owner qd]. rewrite Hn, In. reflexivity.
    + rewrite Hqd. cbn [dn]. lia.
    + intros t' x Hx. assert (t' = t) by congruence. subst t'. exact Et.
    + intros t' x. rewrite Bl, Hqd. cbn [dv]. destruct ((t' =? t) && (x =? a)) eqn:X.
      * assert (t' = t /\ x = a) as [-> ->] by lia. rewrite Hb, !Z.eqb_refl. cbn [andb b' b_ref b_data b_unwr]. repeat split; lia.
      * rewrite (Z.eqb_sym t t'), (Z.eqb_sym a x), X. destruct (w_blk W t' x); [repeat split; lia|]. intro Y. injection Y as Y1 Y2. lia.
    + intros t' x c. rewrite Bl. destruct ((t' =? t) && (x =? a)) eqn:X.
      * intro Y. injection Y as <-. cbn [b' b_ref b_unwr]. split; [lia|]. split; [lia|]. rewrite U. discriminate.
      * apply (ki_one W (proj2 I)).
    + intros k Rk Nk. exfalso. apply Nk. exact Rk.
  - intro k. rewrite (kval_held W3 qd t a b' k (rb_hold _ _ _ _ _ _ Rb) Bt), (kval_held W qs t a b k Hqs Hb). reflexivity.
Qed.

(* ---- one piece ---- *)

Lemma pos_facts : forall W i off end_ r, 0 <= off -> pos_ref W i off end_ r ->
  fl_addr r = place W i off /\ fl_kind r = kind_of (fi_ty2 (w_ino W i)) off /\
  fl_partial r = off_is_partial off end_ (cur_ltype (fi_ty2 (w_ino W i)) off) /\ fl_shared r = false.
Proof.
  intros W i off end_ r H P. unfold pos_ref in P. unfold place. destruct (key_of W i off) as [q|]; subst r; repeat split; reflexivity.
Qed.
Lemma keff_wr_all : forall i q0 lo hi W W', Inv W -> KEff i q0 lo hi W W' ->
  (forall t a b', hold W' q0 = Some (t, a) -> w_blk W' t a = Some b' ->
     b_unwr b' = false \/ exists b, hold W q0 = Some (t, a) /\ w_blk W t a = Some b /\ b_unwr b' = b_unwr b) ->
  forall j o, wr_at W j o -> wr_at W' j o.
Proof.
  intros i q0 lo hi W W' I K H j o Hw. destruct (key_of W j o) as [q|] eqn:E.
  2: { apply (keff_wr i q0 lo hi W W' j o I K); [congruence|exact Hw]. }
  destruct (key_dec q q0) as [->|N]; [|apply (keff_wr i q0 lo hi W W' j o I K); [congruence|exact Hw]].
  intros t a b' Hp Hb. rewrite (keff_place0 _ _ _ _ _ _ j o I K E) in Hp.
  destruct (H t a b' Hp Hb) as [X|(b & H1 & H2 & H3)]; [exact X|]. rewrite H3. apply (Hw t a b); [|exact H2].
  rewrite (place_key W j o q0 E). exact H1.
Qed.
Lemma keff_sole_all : forall i q0 lo hi W W', Inv W -> KEff i q0 lo hi W W' -> no_gain q0 W W' -> sole W' q0 ->
  forall j o, sole_at W j o -> sole_at W' j o.
Proof.
  intros i q0 lo hi W W' I K G H j o Hw. destruct (key_of W j o) as [q|] eqn:E.
  2: { apply (keff_sole i q0 lo hi W W' j o I K G); [congruence|exact Hw]. }
  destruct (key_dec q q0) as [->|N]; [|apply (keff_sole i q0 lo hi W W' j o I K G); [congruence|exact Hw]].
  intros t a b' Hp Hb. rewrite (keff_place0 _ _ _ _ _ _ j o I K E) in Hp. apply (H t a b' Hp Hb).
Qed.

Record Cp (i_s off_s i_d off_d end_d len : Z) (W W' : world) : Prop := mkCp {
  cp_eff : Eff i_d off_d end_d W W';
  cp_val : forall k, 0 <= k < len -> content W' i_d (off_d + k) = content W i_s (off_s + k);
  cp_wr : forall j o, 0 <= o -> wr_at W j o -> wr_at W' j o;
  cp_sole : forall j o, 0 <= o -> ~ (j = i_s /\ off_s <= o < off_s + len) -> ~ (j = i_d /\ off_d <= o < off_d + len) ->
            sole_at W j o -> sole_at W' j o }.

Lemma sp_may_share : forall W is_src r, spec W (may_share is_src r)
  (fun v W' => W' = W /\ (v = true -> fl_kind r = TREE /\ fl_partial r = false)) (here W).
Proof.
  intros W is_src r. unfold may_share. destruct (is_src && negb (has_data r)); [apply sp_ret; split; [reflexivity|discriminate]|].
  destruct (fl_kind r) eqn:K; try (apply sp_ret; split; [reflexivity|discriminate]).
  destruct (fl_partial r) eqn:P; [apply sp_ret; split; [reflexivity|discriminate]|].
  destruct (fl_laddr r); [|apply sp_ret; split; [reflexivity|split; reflexivity]].
  intros s Hs N. unfold test_mutable. destruct (s_mut s) as [|v m]; (split; [exact N|split; [exact Hs|split; reflexivity]]).
Qed.
Lemma sp_may_share2 : forall W rs rd, spec W (may_share2 rs rd)
  (fun v W' => W' = W /\ (v = true -> fl_kind rs = TREE /\ fl_partial rs = false /\ fl_kind rd = TREE /\ fl_partial rd = false)) (here W).
Proof.
  intros W rs rd. unfold may_share2. eapply sp_bind; [apply sp_may_share|]. cbv beta. intros x W' [-> Hx].
  destruct x; [|apply sp_ret; split; [reflexivity|discriminate]].
  eapply sp_conseq; [apply sp_may_share| |intros e W' X; exact X]. cbv beta. intros v W' [-> Hv]. split; [reflexivity|].
  intro Ev. destruct (Hx eq_refl), (Hv Ev). auto.
Qed.
Lemma sp_resolve_laddr : forall W r, spec W (resolve_laddr r) (fun r' W' => W' = W /\ (r' = r \/ r' = fl_set_laddr r true)) (here W).
Proof.
  intros W r. unfold resolve_laddr. destruct (has_data r); [|apply sp_ret; split; [reflexivity|left; reflexivity]].
  apply sp_mf; [apply sp_ret; split; [reflexivity|right; reflexivity]|]. intros e N. split; [exact N|reflexivity].
Qed.
Lemma sp_require_mut_by : forall W r, spec W (require_mut_by r) (fun _ W' => W' = W) (here W).
Proof.
  intros W r. unfold require_mut_by. destruct (has_data r); [|apply sp_ret; reflexivity]. unfold require_mut.
  eapply sp_conseq; [apply sp_may_fail|intros x W' X; exact X|intros e W' X; exact X].
Qed.

(* the holder of an offset, after its leaf has been created *)
Definition got_at (i off end_ : Z) (W : world) (r : flref) (W' : world) : Prop :=
  exists W1 q, GEff i W W1 /\ key_of W1 i off = Some q /\ got_leaf W1 i off end_ q r W'.
Lemma sp_require_leaf : forall W i off end_, Inv W -> 0 <= off < 2 ^ 56 ->
  spec W (require_leaf i off end_) (fun r W' => got_at i off end_ W r W') (EW (Eff i 0 0 W)).
Proof.
  intros W i off end_ I H. unfold require_leaf. sp_ino. set (ty2 := fi_ty2 (w_ino W i)).
  assert (Hd : forall k, k <> TREE -> kind_of ty2 off = k ->
     spec W (require_head k i off end_) (fun r W' => got_at i off end_ W r W') (EW (Eff i 0 0 W))).
  { intros k N E. pose proof (key_of_head W i off k E N) as Ek.
    eapply sp_conseq; [apply (sp_require_head W i off end_ k I ltac:(lia) E N)| |].
    - intros r W' X. exists W, (hkey i off k). split; [apply ge_refl, I|]. split; [exact Ek|exact X].
    - intros e W' [N' X]. split; [exact N'|]. apply (keff_eff0 i (hkey i off k) W W' off); try assumption. lia. }
  destruct (kind_of ty2 off) eqn:K; [apply Hd; [discriminate|reflexivity]|apply Hd; [discriminate|reflexivity]|].
  eapply sp_bind.
  { eapply sp_conseq; [apply (sp_require_tree_ge W i off I H)|intros x W' X; exact X|]. intros e W' [N X]. split; [exact N|apply X]. }
  cbv beta. intros p W1 [G B]. pose proof (e_inv _ _ _ _ _ G) as I1.
  assert (K1 : kind_of (fi_ty2 (w_ino W1 i)) off = TREE) by (rewrite (e_ty2 _ _ _ _ _ G); exact K).
  pose proof (key_of_tree W1 i off p K1 B) as Ek.
  eapply sp_conseq; [apply (sp_require_tree_leaf W1 i off end_ p I1 ltac:(lia) B)| |].
  - intros r W' X. exists W1, (KN p (leaf_slot off)). auto.
  - intros e W' [N X]. split; [exact N|]. apply (eff_trans _ _ _ _ W1); [apply G|].
    apply (keff_eff0 i (KN p (leaf_slot off)) W1 W' off); try assumption. lia.
Qed.

Lemma len_next : forall W i off end_, 0 <= off < end_ -> off + copy_length (fi_ty2 (w_ino W i)) off end_ = Z.min (leaf_end W i off) end_.
Proof.
  intros W i off end_ H. unfold copy_length, len_to_next, leaf_end. rewrite next_spec by (lia || apply cur_dsize). lia.
Qed.
Lemma leaf_end_gt : forall W i off, 0 <= off -> off < leaf_end W i off.
Proof. intros W i off H. unfold leaf_end. destruct (cur_dsize (fi_ty2 (w_ino W i)) off) as [D|[D|D]]; rewrite D; lia. Qed.
Lemma place_none : forall W i off k, tree_inv W -> 0 <= off -> place W i off = None -> 0 <= k -> off + k < leaf_end W i off -> content W i (off + k) = 0.
Proof.
  intros W i off k T H P Hk Hl. unfold place in P. destruct (key_of W i off) as [q|] eqn:E.
  - rewrite (key_leaf_end W i off q H E) in Hl. rewrite (content_at W i off q k T H E Hk).
    + unfold kval. rewrite P. reflexivity.
    + pose proof (Z.div_mod off (ksize q) ltac:(pose proof (ktype_nonzero q); lia)). lia.
  - assert (K : kind_of (fi_ty2 (w_ino W i)) off = TREE).
    { unfold key_of in E. destruct (kind_of _ off); [discriminate|discriminate|reflexivity]. }
    rewrite (tree_leaf_end W i off K) in Hl. apply (content_none W i off k T H E Hk). lia.
Qed.

Section piece.
Variables (W : world) (i_s off_s end_s i_d off_d end_d len : Z).
Hypothesis I : Inv W.
Hypothesis Hs : 0 <= off_s < end_s.
Hypothesis Hd : 0 <= off_d < end_d.
Hypothesis Hm : end_d <= 2 ^ 56.
Hypothesis Hl0 : 0 < len.
Hypothesis Hl1 : off_s + len <= Z.min (leaf_end W i_s off_s) end_s.
Hypothesis Hl2 : off_d + len <= Z.min (leaf_end W i_d off_d) end_d.
Hypothesis Hl3 : off_s + len = Z.min (leaf_end W i_s off_s) end_s \/ off_d + len = Z.min (leaf_end W i_d off_d) end_d.
Hypothesis Dj : i_s = i_d -> end_s <= off_d \/ end_d <= off_s.
Hypothesis Wr : forall o, off_s <= o < end_s -> wr_at W i_s o.
Hypothesis So : forall o, off_d <= o < end_d -> sole_at W i_d o.

Let goal (m : M unit) : Prop := spec W m (fun _ W' => Cp i_s off_s i_d off_d end_d len W W') (EW (Eff i_d off_d end_d W)).

Lemma piece_pos : forall i off q V, 0 <= off -> key_of V i off = Some q -> off + len <= leaf_end V i off ->
  0 <= off mod ksize q /\ off mod ksize q + len <= ksize q.
Proof.
  intros i off q V H E L. rewrite (key_leaf_end V i off q H E) in L. pose proof (ktype_nonzero q).
  pose proof (Z.div_mod off (ksize q) ltac:(lia)). pose proof (Z.mod_pos_bound off (ksize q) ltac:(lia)). lia.
Qed.

Lemma piece_none : place W i_s off_s = None -> place W i_d off_d = None -> goal (ret tt).
Proof.
  intros Ps Pd. apply sp_ret. constructor; [apply eff_refl, I| |auto|auto].
  intros k Hk. rewrite (place_none W i_s off_s k), (place_none W i_d off_d k); try lia; try apply I; assumption.
Qed.
Lemma piece_hole : forall q rd, place W i_s off_s = None -> key_of W i_d off_d = Some q -> rlike W i_d off_d end_d q rd -> fl_shared rd = false -> fl_addr rd <> None ->
  goal (require_mut_by rd ;;; r1 <- unshare i_d rd off_d ;; discard_by false i_d r1 off_d end_d).
Proof.
  intros q rd Ps E Rl Sh Ad. destruct (clip_spec W i_d off_d end_d q Hd E) as (C1 & C2 & C3 & C4 & C5).
  assert (Sq : sole W q).
  { intros t a b Hq. apply (So off_d ltac:(lia)). rewrite (place_key W i_d off_d q E). exact Hq. }
  unfold goal. eapply sp_bind.
  { eapply sp_conseq; [apply sp_require_mut_by|intros x W' X; exact X|]. intros e W' [N ->]. split; [exact N|apply eff_refl, I]. }
  cbv beta. intros _ W' ->. eapply sp_bind.
  { instantiate (1 := fun r' W' => W' = W /\ r' = rd). unfold unshare. rewrite Sh. destruct (fl_addr rd) as [[t a]|]; [|congruence]. cbn [negb orb]. apply sp_ret. split; reflexivity. }
  cbv beta. intros r1 W' [-> ->].
  assert (Ef : forall W', KEff i_d q (off_d mod ksize q) (off_d mod ksize q + clip q off_d end_d) W W' -> Eff i_d off_d end_d W W').
  { intros W' K. apply (eff_weak i_d off_d (Z.min (leaf_end W i_d off_d) end_d)); [apply (leaf_eff W i_d off_d end_d q); assumption|lia|lia]. }
  eapply sp_conseq; [apply (sp_discard_sole W i_d off_d end_d q rd I Hd E Rl Sh Sq)| |intros e W' [N X]; split; [exact N|apply Ef, X]].
  cbv beta. intros _ W' (K & V & Hh). pose proof (k_inv _ _ _ _ _ _ K) as I'.
  assert (E' : key_of W' i_d off_d = Some q) by (rewrite (keff_key _ _ _ _ _ _ i_d off_d I K); exact E).
  constructor.
  - apply Ef, K.
  - intros k Hk. rewrite (place_none W i_s off_s k); try lia; try apply I; try assumption.
    rewrite (content_at W' i_d off_d q k); try lia; try apply I'; try assumption. apply V. lia.
  - intros j o _. apply (keff_wr_all _ _ _ _ _ _ I K). intros t a b' H1 H2. destruct Hh as [Hh|(_ & Hh & Kb)]; [congruence|].
    rewrite Hh in H1. pose proof (ki_blk W (proj2 I) q t a H1) as Bb. destruct (w_blk W t a) as [b|] eqn:B; [|congruence].
    right. exists b. split; [exact H1|]. split; [reflexivity|]. apply (Kb t a b b' H1 B H2).
  - intros j o _ _ _. apply (keff_sole_all _ _ _ _ _ _ I K).
    + intros x t a N H1 H2. destruct Hh as [Hh|(_ & Hh & _)]; congruence.
    + intros t a b' H1 H2. destruct Hh as [Hh|(_ & Hh & Kb)]; [congruence|]. rewrite Hh in H1.
      pose proof (ki_blk W (proj2 I) q t a H1) as Bb. destruct (w_blk W t a) as [b|] eqn:B; [|congruence]. apply (Kb t a b b' H1 B H2).
Qed.
(* whole leaves *)
Lemma piece_whole : forall V i off end_, 0 <= off -> kind_of (fi_ty2 (w_ino V i)) off = TREE ->
  off_is_partial off end_ (cur_ltype (fi_ty2 (w_ino V i)) off) = false -> off mod 65536 = 0 /\ off + 65536 <= end_ /\ leaf_end V i off = off + 65536.
Proof.
  intros V i off end_ H K P. unfold cur_ltype in P. rewrite K in P. cbn [kind_ltype] in P.
  rewrite partial_spec in P; [|exact H|right; right; reflexivity]. change (ltype_size LT_DATABK) with 65536 in P.
  rewrite (tree_leaf_end V i off K). lia.
Qed.
(* the copy itself, in a state reached from W by growing the tree and creating the leaf *)
Lemma piece_copy : forall V V1 qs qd rs rd ts a_s bs td ad bd, GEff i_d W V -> KEff i_d qd 0 0 V V1 ->
  key_of V i_s off_s = Some qs -> key_of V i_d off_d = Some qd ->
  hold V1 qs = hold V qs -> hold V1 qs = Some (ts, a_s) -> w_blk V1 ts a_s = Some bs -> b_unwr bs = false -> fl_addr rs = Some (ts, a_s) ->
  hold V1 qd = Some (td, ad) -> w_blk V1 td ad = Some bd -> b_ref bd = 1 -> fl_addr rd = Some (td, ad) -> fl_leaf rd = ksize qd ->
  no_gain qd V V1 ->
  (forall k, 0 <= k < len -> kval V1 qs (off_s mod ksize qs + k) = kval V qs (off_s mod ksize qs + k)) ->
  spec V1 (copy_leaf rs off_s rd off_d len) (fun _ W' => Cp i_s off_s i_d off_d end_d len W W') (EW (Eff i_d off_d end_d W)).
Proof.
  intros V V1 qs qd rs rd ts a_s bs td ad bd G K1 Es Ed Hh Hqs Hbs Us Ars Hqd Hbd Rd Ard Lrd Ng Hv.
  pose proof (e_inv _ _ _ _ _ G) as IV. pose proof (k_inv _ _ _ _ _ _ K1) as I1.
  assert (Ty : forall j, fi_ty2 (w_ino V j) = fi_ty2 (w_ino W j)).
  { intro j. destruct (Z.eq_dec j i_d) as [->|N]; [apply (e_ty2 _ _ _ _ _ G)|]. rewrite (e_ino _ _ _ _ _ G j N). reflexivity. }
  assert (Le : forall j o, leaf_end V j o = leaf_end W j o) by (intros j o; unfold leaf_end; rewrite Ty; reflexivity).
  destruct (piece_pos i_s off_s qs V ltac:(lia) Es ltac:(rewrite Le; lia)) as [P1 P2].
  destruct (piece_pos i_d off_d qd V ltac:(lia) Ed ltac:(rewrite Le; lia)) as [P3 P4].
  assert (Ef : forall W', KEff i_d qd (off_d mod ksize qd) (off_d mod ksize qd + len) V W' -> Eff i_d off_d end_d W W').
  { intros W' K. apply (eff_trans _ _ _ _ V); [apply eff_empty, G|]. pose proof (ktype_nonzero qd).
    pose proof (keff_eff _ _ _ _ _ _ off_d IV ltac:(lia) Ed K) as X. pose proof (Z.div_mod off_d (ksize qd) ltac:(lia)).
    apply (eff_weak _ _ _ off_d end_d) in X; [exact X|lia|lia]. }
  assert (Ec : forall o, 0 <= o -> content V i_s o = content W i_s o).
  { intros o Ho. destruct (Z.eq_dec i_s i_d) as [X|N]; [rewrite X; apply (e_out _ _ _ _ _ G); lia|apply (e_oth _ _ _ _ _ G); assumption]. }
  eapply sp_conseq; [apply (sp_copy_leaf V1 i_d qs qd rs rd off_s off_d len ts a_s bs td ad bd); try assumption; lia| |].
  - cbv beta. intros _ W' (K2 & V2 & H2 & b' & Hb' & R' & U').
    pose proof (keff_trans _ _ _ _ _ _ _ (keff_empty _ _ (off_d mod ksize qd) (off_d mod ksize qd + len) _ _ K1) K2) as K. pose proof (k_inv _ _ _ _ _ _ K) as I'.
    constructor.
    + apply Ef, K.
    + intros k Hk. rewrite (content_at W' i_d off_d qd k); try lia; [|apply I'|rewrite (keff_key _ _ _ _ _ _ i_d off_d IV K); exact Ed].
      rewrite V2, Hv by lia. rewrite <- (content_at V i_s off_s qs k); try lia; [|apply IV|exact Es]. apply Ec. lia.
    + intros j o Ho Hw. apply (keff_wr_all _ _ _ _ _ _ IV K); [|apply (ge_wr i_d W V j o G Ho Hw)].
      intros t a b H3 H4. left. assert (t = td /\ a = ad) as [-> ->] by (rewrite H2 in H3; injection H3; auto). congruence.
    + intros j o Ho _ _ Hw. apply (keff_sole_all _ _ _ _ _ _ IV K); [| |apply (ge_sole i_d W V j o G Ho Hw)].
      * intros x t a N H3 H4. apply (Ng x t a N H3). congruence.
      * intros t a b H3 H4. assert (t = td /\ a = ad) as [-> ->] by (rewrite H2 in H3; injection H3; auto). congruence.
  - intros e W' [N K2]. split; [exact N|]. apply Ef. apply (keff_trans _ _ _ _ _ V1); [apply keff_empty, K1|exact K2].
Qed.
(* sharing, in a state reached from W by growing the tree or by clearing the leaf *)
Lemma piece_share : forall V qs p rs rd t a b, Inv V -> Eff i_d off_d end_d W V -> len = 65536 -> off_s mod 65536 = 0 -> off_d mod 65536 = 0 ->
  off_d + 65536 <= end_d -> kind_of (fi_ty2 (w_ino V i_d)) off_d = TREE ->
  key_of V i_s off_s = Some qs -> bottom V i_d off_d = Some p -> hold V (KN p (leaf_slot off_d)) = None ->
  ksize qs = 65536 -> hold V qs = Some (t, a) -> w_blk V t a = Some b -> b_unwr b = false -> fl_addr rs = Some (t, a) -> t = LT_DATABK -> 0 <= a ->
  fl_parent rd = Some p ->
  (forall j o, 0 <= o -> wr_at W j o -> wr_at V j o) ->
  (forall j o, 0 <= o -> ~ (j = i_d /\ off_d <= o < off_d + len) -> sole_at W j o -> sole_at V j o) ->
  spec V (share_leaf rs i_d off_d rd) (fun _ W' => Cp i_s off_s i_d off_d end_d len W W') (EW (Eff i_d off_d end_d W)).
Proof.
  intros V qs p rs rd t a b IV Ef0 El Ms Md Me Kd Es Bd Hqd Sq Hqs Hb U Ars Et Ha Pr Cw Cs.
  set (qd := KN p (leaf_slot off_d)) in *. pose proof (key_of_tree V i_d off_d p Kd Bd) as Ed. fold qd in Ed.
  assert (Sd : ksize qd = 65536) by reflexivity.
  assert (Ef : forall W', KEff i_d qd 0 65536 V W' -> Eff i_d off_d end_d W W').
  { intros W' K. apply (eff_trans _ _ _ _ V); [exact Ef0|].
    pose proof (keff_eff _ _ _ _ _ _ off_d IV ltac:(lia) Ed K) as X. rewrite Sd in X.
    apply (eff_weak _ _ _ off_d end_d) in X; [exact X|lia|lia]. }
  assert (Ec : forall k, 0 <= k < len -> content V i_s (off_s + k) = content W i_s (off_s + k)).
  { intros k Hk. destruct (Z.eq_dec i_s i_d) as [X|N]; [|apply (e_oth _ _ _ _ _ Ef0); [exact N|lia]].
    rewrite X. apply (e_out _ _ _ _ _ Ef0); [lia|]. specialize (Dj X). lia. }
  eapply sp_conseq; [apply (sp_share V i_d off_d p qs rs rd t a b IV Bd Hqs Hb U Et Ha Ars Pr Hqd)| |intros e W' [N K]; split; [exact N|apply Ef, K]].
  cbv beta. fold qd. intros _ W' (K & V1 & Hh & b' & Hb' & U'). pose proof (k_inv _ _ _ _ _ _ K) as I'. constructor.
  - apply Ef, K.
  - intros k Hk. rewrite (content_at W' i_d off_d qd k); try lia; [|apply I'|rewrite (keff_key _ _ _ _ _ _ i_d off_d IV K); exact Ed].
    rewrite V1. rewrite <- Ec by exact Hk. rewrite (content_at V i_s off_s qs k); try lia; [|apply IV|exact Es]. rewrite Sq, Sd, Ms, Md. reflexivity.
  - intros j o Ho Hw. apply (keff_wr_all _ _ _ _ _ _ IV K); [|apply Cw; assumption].
    intros t0 a0 b0 H3 H4. left. assert (t0 = t /\ a0 = a) as [-> ->] by (rewrite Hh in H3; injection H3; auto). congruence.
  - intros j o Ho Ns Nd Hw. pose proof (Cs j o Ho Nd Hw) as Hw'.
    assert (N1 : forall q, key_of V j o = Some q -> q <> qd).
    { intros q Eq ->. destruct (key_inj V j i_d o off_d qd (proj1 IV) Ho ltac:(lia) Eq Ed) as [-> X]. apply Nd. rewrite Sd in X. lia. }
    assert (N2 : forall q, key_of V j o = Some q -> q <> qs).
    { intros q Eq ->. destruct (key_inj V j i_s o off_s qs (proj1 IV) Ho ltac:(lia) Eq Es) as [-> X]. apply Ns. rewrite Sq in X. lia. }
    destruct (key_of V j o) as [q|] eqn:Eq.
    2: { intros t0 a0 b0 H3. rewrite (keff_place _ _ _ _ _ _ j o IV K) in H3 by congruence. unfold place in H3. rewrite Eq in H3. discriminate. }
    specialize (N1 q eq_refl). specialize (N2 q eq_refl).
    intros t0 a0 b0 H3 H4. rewrite (keff_place _ _ _ _ _ _ j o IV K), (place_key V j o q Eq) in H3 by congruence.
    pose proof (ki_blk V (proj2 IV) q t0 a0 H3) as Bb. destruct (w_blk V t0 a0) as [c|] eqn:B; [|congruence].
    assert (R1 : b_ref c = 1) by (apply (Hw' t0 a0 c); [rewrite (place_key V j o q Eq); exact H3|exact B]).
    assert (Nh : hold V qs <> Some (t0, a0)).
    { intro X. apply N2. symmetry. apply (sole_holder V q qs t0 a0 c); try assumption. apply IV. }
    destruct (k_blk _ _ _ _ _ _ K q t0 a0 c b0 N1 H3 B H4) as [_ X]. rewrite Hh, Hqd in X. cbn [dv] in X.
    assert (Y : (t =? t0) && (a =? a0) = false).
    { destruct ((t =? t0) && (a =? a0)) eqn:Y; [|reflexivity]. exfalso. apply Nh. rewrite Hqs. f_equal. f_equal; lia. }
    rewrite Y in X. pose proof (proj1 (ki_one W' (proj2 I') t0 a0 b0 H4)). lia.
Qed.

Lemma ge_key : forall V i off t a, GEff i_d W V -> 0 <= off -> place W i off = Some (t, a) ->
  exists q, key_of V i off = Some q /\ hold V q = Some (t, a).
Proof.
  intros V i off t a G H P. rewrite <- (ge_place _ _ _ G i off H) in P. unfold place in P.
  destruct (key_of V i off) as [q|]; [|discriminate]. exists q. auto.
Qed.
Lemma sp_copy_at_leaf : forall rs rd, pos_ref W i_s off_s end_s rs -> pos_ref W i_d off_d end_d rd ->
  goal (copy_at_leaf rs off_s i_d rd off_d end_d len).
Proof.
  intros rs rd Ps Pd. destruct (pos_facts W i_s off_s end_s rs ltac:(lia) Ps) as (As & Ks & Fs & Ss).
  destruct (pos_facts W i_d off_d end_d rd ltac:(lia) Pd) as (Ad & Kd & Fd & Sd).
  assert (He : forall e W', here W e W' -> EW (Eff i_d off_d end_d W) e W') by (intros e W' [N ->]; split; [exact N|apply eff_refl, I]).
  unfold copy_at_leaf, has_data. rewrite As, Ad. destruct (place W i_s off_s) as [[ts a_s]|] eqn:Es; destruct (place W i_d off_d) as [[td ad]|] eqn:Ed.
  - (* both *)
    assert (Qs : exists q, key_of W i_s off_s = Some q /\ hold W q = Some (ts, a_s)).
    { unfold place in Es. destruct (key_of W i_s off_s) as [q|]; [exists q; auto|discriminate]. }
    assert (Qd : exists q, key_of W i_d off_d = Some q /\ hold W q = Some (td, ad)).
    { unfold place in Ed. destruct (key_of W i_d off_d) as [q|]; [exists q; auto|discriminate]. }
    destruct Qs as (qs & Eqs & Hqs). destruct Qd as (qd & Eqd & Hqd).
    unfold pos_ref in Pd. rewrite Eqd in Pd. pose proof (lref_at W i_d off_d end_d qd ltac:(lia) Eqd) as Lr. rewrite <- Pd in Lr.
    pose proof (ki_blk W (proj2 I) qs ts a_s Hqs) as Bs. destruct (w_blk W ts a_s) as [bs|] eqn:Hbs; [|congruence]. clear Bs.
    pose proof (ki_blk W (proj2 I) qd td ad Hqd) as Bd. destruct (w_blk W td ad) as [bd|] eqn:Hbd; [|congruence]. clear Bd.
    pose proof (Wr off_s ltac:(lia) ts a_s bs Es Hbs) as Us. pose proof (So off_d ltac:(lia) td ad bd Ed Hbd) as Rd.
    unfold goal. eapply sp_bind; [eapply sp_conseq; [apply sp_require_mut_by|intros x W' X; exact X|exact He]|]. cbv beta. intros _ W' ->.
    eapply sp_bind; [eapply sp_conseq; [apply (sp_resolve_laddr W rs)|intros x W' X; exact X|exact He]|]. cbv beta. intros rs' W' [-> Ers].
    eapply sp_bind; [eapply sp_conseq; [apply (sp_resolve_laddr W rd)|intros x W' X; exact X|exact He]|]. cbv beta. intros rd' W' [-> Erd].
    assert (As' : fl_addr rs' = Some (ts, a_s)) by (destruct Ers as [->| ->]; exact As).
    assert (Fs' : fl_kind rs' = fl_kind rs /\ fl_partial rs' = fl_partial rs) by (destruct Ers as [->| ->]; split; reflexivity).
    assert (Lr' : lref W i_d off_d end_d qd rd') by (destruct Erd as [->| ->]; [exact Lr|apply lref_laddr, Lr]). destruct Lr' as [Rl Lf Sh].
    eapply sp_bind; [eapply sp_conseq; [apply (sp_may_share2 W rs' rd')|intros x W' X; exact X|exact He]|]. cbv beta. intros sh W' [-> Hsh].
    destruct sh.
    + destruct (Hsh eq_refl) as (H1 & H2 & H3 & H4). clear Hsh. destruct Fs' as [F1 F2]. rewrite F1, Ks in H1. rewrite F2, Fs in H2.
      rewrite (rl_kind _ _ _ _ _ _ Rl) in H3. rewrite (rl_partial _ _ _ _ _ _ Rl) in H4. pose proof H4 as H4'. rewrite (key_of_type W i_d off_d qd) in H4' by (assumption || lia).
      destruct (piece_whole W i_s off_s end_s ltac:(lia) H1 H2) as (S1 & S2 & S3).
      destruct (piece_whole W i_d off_d end_d ltac:(lia) H3 H4') as (D1 & D2 & D3).
      assert (El : len = 65536) by lia.
      pose proof (key_kind W i_s off_s qs ltac:(lia) Eqs) as Kks. pose proof (key_kind W i_d off_d qd ltac:(lia) Eqd) as Kkd.
      destruct qs as [? ?|ps ss]; [exfalso; rewrite H1 in Kks; intuition congruence|].
      destruct qd as [? ?|pd sd]; [exfalso; rewrite H3 in Kkd; intuition congruence|].
      destruct Kkd as (_ & -> & Bd). set (qs := KN ps ss) in *. set (qd := KN pd (leaf_slot off_d)) in *.
      assert (Nq : qs <> qd).
      { intro X. rewrite X in Eqs. destruct (key_inj W i_s i_d off_s off_d qd (proj1 I) ltac:(lia) ltac:(lia) Eqs Eqd) as [Y Z0].
        change (ksize qd) with 65536 in Z0. specialize (Dj Y). lia. }
      assert (Sq : sole W qd) by (intros t a b H; rewrite Hqd in H; assert (t = td /\ a = ad) as [-> ->] by (injection H; auto); congruence).
      destruct (clip_spec W i_d off_d end_d qd Hd Eqd) as (C1 & C2 & C3 & C4 & C5).
      assert (Ef : forall W', KEff i_d qd (off_d mod ksize qd) (off_d mod ksize qd + clip qd off_d end_d) W W' -> Eff i_d off_d end_d W W').
      { intros W' K. apply (eff_weak i_d off_d (Z.min (leaf_end W i_d off_d) end_d)); [apply (leaf_eff W i_d off_d end_d qd); assumption|lia|lia]. }
      eapply sp_bind.
      { eapply sp_conseq; [apply (sp_discard_sole W i_d off_d end_d qd rd' I Hd Eqd Rl Sh Sq)|intros x W' X; exact X|].
        intros e W' [N X]. split; [exact N|apply Ef, X]. }
      cbv beta. intros _ V (K & _ & Hh). assert (HhN : hold V qd = None) by (destruct Hh as [Hh|[X _]]; [exact Hh|congruence]). clear Hh.
      pose proof (k_inv _ _ _ _ _ _ K) as IV.
      assert (Hqs' : hold V qs = Some (ts, a_s)) by (rewrite (k_hold _ _ _ _ _ _ K qs Nq); exact Hqs).
      pose proof (ki_blk V (proj2 IV) qs ts a_s Hqs') as Bs. destruct (w_blk V ts a_s) as [bs'|] eqn:Hbs'; [|congruence]. clear Bs.
      destruct (k_blk _ _ _ _ _ _ K qs ts a_s bs bs' Nq Hqs Hbs Hbs') as [Uu _].
      apply (piece_share V qs pd rs' rd' ts a_s bs'); try assumption; try reflexivity.
      * apply Ef, K.
      * rewrite (k_ty2 _ _ _ _ _ _ K). exact H3.
      * rewrite (keff_key _ _ _ _ _ _ i_s off_s I K). exact Eqs.
      * rewrite (skel_bottom W V i_d off_d (proj1 I)); [exact Bd|apply K].
      * congruence.
      * apply (ki_type W (proj2 I) qs ts a_s Hqs).
      * apply (hold_pos W ps ss ts a_s Hqs).
      * exact (rl_parent _ _ _ _ _ _ Rl).
      * intros j o _. apply (keff_wr_all _ _ _ _ _ _ I K). intros t a b X. congruence.
      * intros j o _ _. apply (keff_sole_all _ _ _ _ _ _ I K); [intros x t a _ _ X; congruence|intros t a b X; congruence].
    + apply (piece_copy W W qs qd rs' rd' ts a_s bs td ad bd); try assumption; try reflexivity.
      * apply ge_refl, I.
      * apply keff_refl, I.
      * rewrite (rl_addr _ _ _ _ _ _ Rl). exact Hqd.
      * intros x t a _ _ X. exact X.
  - (* source only *)
    assert (Qs : exists q, key_of W i_s off_s = Some q /\ hold W q = Some (ts, a_s)).
    { unfold place in Es. destruct (key_of W i_s off_s) as [q|]; [exists q; auto|discriminate]. }
    destruct Qs as (q0 & Eq0 & Hq0). pose proof (ki_blk W (proj2 I) q0 ts a_s Hq0) as Bs.
    destruct (w_blk W ts a_s) as [bs|] eqn:Hbs; [|congruence]. clear Bs. pose proof (Wr off_s ltac:(lia) ts a_s bs Es Hbs) as Us.
    unfold goal. eapply sp_bind; [eapply sp_conseq; [apply (sp_resolve_laddr W rs)|intros x W' X; exact X|exact He]|]. cbv beta. intros rs' W' [-> Ers].
    assert (As' : fl_addr rs' = Some (ts, a_s)) by (destruct Ers as [->| ->]; exact As).
    assert (Fs' : fl_kind rs' = fl_kind rs /\ fl_partial rs' = fl_partial rs) by (destruct Ers as [->| ->]; split; reflexivity).
    eapply sp_bind; [eapply sp_conseq; [apply (sp_may_share2 W rs' rd)|intros x W' X; exact X|exact He]|]. cbv beta. intros sh W' [-> Hsh].
    destruct sh.
    + destruct (Hsh eq_refl) as (H1 & H2 & H3 & H4). clear Hsh. destruct Fs' as [F1 F2]. rewrite F1, Ks in H1. rewrite F2, Fs in H2.
      rewrite Kd in H3. rewrite Fd in H4.
      destruct (piece_whole W i_s off_s end_s ltac:(lia) H1 H2) as (S1 & S2 & S3).
      destruct (piece_whole W i_d off_d end_d ltac:(lia) H3 H4) as (D1 & D2 & D3).
      assert (El : len = 65536) by lia.
      eapply sp_bind.
      { eapply sp_conseq; [apply (sp_require_tree_ge W i_d off_d I ltac:(lia))|intros x W' X; exact X|].
        intros e W' [N X]. split; [exact N|apply eff_empty, X]. }
      cbv beta. intros p V [G B]. pose proof (e_inv _ _ _ _ _ G) as IV.
      eapply sp_bind; [apply (sp_resolve_tree V i_d off_d end_d p (proj1 IV) B)|]. cbv beta. intros rd' W' [-> ->].
      assert (Ty : forall j, fi_ty2 (w_ino V j) = fi_ty2 (w_ino W j)).
      { intro j. destruct (Z.eq_dec j i_d) as [->|N]; [apply (e_ty2 _ _ _ _ _ G)|]. rewrite (e_ino _ _ _ _ _ G j N). reflexivity. }
      destruct (ge_key V i_s off_s ts a_s G ltac:(lia) Es) as (qs & Eqs & Hqs).
      pose proof (key_kind V i_s off_s qs ltac:(lia) Eqs) as Kks. rewrite Ty, H1 in Kks.
      destruct qs as [? ?|ps ss]; [exfalso; intuition congruence|]. set (qs := KN ps ss) in *.
      apply (piece_share V qs p rs' _ ts a_s bs); try assumption; try reflexivity.
      * apply eff_empty, G.
      * rewrite Ty. exact H3.
      * rewrite <- (place_key V i_d off_d); [rewrite (ge_place _ _ _ G) by lia; exact Ed|]. apply key_of_tree; [rewrite Ty; exact H3|exact B].
      * rewrite (ge_blk _ _ _ G). exact Hbs.
      * apply (ki_type V (proj2 IV) qs ts a_s Hqs).
      * apply (hold_pos V ps ss ts a_s Hqs).
      * intros j o Ho. apply (ge_wr i_d W V j o G Ho).
      * intros j o Ho _. apply (ge_sole i_d W V j o G Ho).
    + eapply sp_bind.
      { eapply sp_conseq; [apply (sp_require_leaf W i_d off_d end_d I ltac:(lia))|intros x W' X; exact X|].
        intros e W' [N X]. split; [exact N|apply eff_empty, X]. }
      cbv beta. intros rd' V1 (V & qd & G & Eqd & K & (xa & xb & Xh & _) & -> & Fr). pose proof (e_inv _ _ _ _ _ G) as IV. pose proof (k_inv _ _ _ _ _ _ K) as I1.
      assert (Hn : hold V qd = None) by (rewrite <- (place_key V i_d off_d qd Eqd), (ge_place _ _ _ G) by lia; exact Ed).
      destruct (ge_key V i_s off_s ts a_s G ltac:(lia) Es) as (qs & Eqs & Hqs).
      assert (Nq : qs <> qd) by congruence.
      pose proof (fun N => k_hold _ _ _ _ _ _ K qs N) as Hh. specialize (Hh Nq).
      assert (Hbv : w_blk V ts a_s = Some bs) by (rewrite (ge_blk _ _ _ G); exact Hbs).
      assert (Hqs1 : hold V1 qs = Some (ts, a_s)) by congruence.
      pose proof (ki_blk V1 (proj2 I1) qs ts a_s Hqs1) as Bs. destruct (w_blk V1 ts a_s) as [bs1|] eqn:Hbs1; [|congruence]. clear Bs.
      destruct (k_blk _ _ _ _ _ _ K qs ts a_s bs bs1 Nq Hqs Hbv Hbs1) as [Uu _].
      destruct Fr as [X|(_ & a & b & Hqd & Hf & Hb & Rb)].
      { exfalso. rewrite X in Xh. congruence. }
      eapply sp_bind.
      { eapply sp_conseq; [apply sp_require_mut_by|intros x W' X; exact X|]. intros e W' [N ->]. split; [exact N|].
        apply (eff_trans _ _ _ _ V); [apply eff_empty, G|]. apply eff_empty. apply (keff_eff0 i_d qd V V1 off_d); try assumption. lia. }
      cbv beta. intros _ W' ->.
      assert (E1 : key_of V1 i_d off_d = Some qd) by (rewrite (keff_key _ _ _ _ _ _ i_d off_d IV K); exact Eqd).
      destruct (lref_at V1 i_d off_d end_d qd ltac:(lia) E1) as [Rl Lf Sh].
      apply (piece_copy V V1 qs qd rs' _ ts a_s bs1 (ktype qd) a b); try assumption.
      * congruence.
      * intros x t a0 _ H1 H2. exfalso. assert (t = ktype qd /\ a0 = a) as [-> ->] by (rewrite Hqd in H2; injection H2; auto).
        apply (ki_blk V (proj2 IV) x _ _ H1 Hf).
      * intros k Hk. apply (k_oth _ _ _ _ _ _ K). exact Nq.
  - (* destination only *)
    assert (Qd : exists q, key_of W i_d off_d = Some q /\ hold W q = Some (td, ad)).
    { unfold place in Ed. destruct (key_of W i_d off_d) as [q|]; [exists q; auto|discriminate]. }
    destruct Qd as (qd & Eqd & Hqd). unfold pos_ref in Pd. rewrite Eqd in Pd.
    pose proof (lref_at W i_d off_d end_d qd ltac:(lia) Eqd) as Lr. rewrite <- Pd in Lr. destruct Lr as [Rl Lf Sh].
    apply (piece_hole qd rd); try assumption. rewrite (rl_addr _ _ _ _ _ _ Rl). congruence.
  - apply piece_none; assumption.
Qed.
End piece.

(* ---- all pieces ---- *)

Lemma copy_iter_S : forall f i_s off_s end_s i_d off_d end_d, copy_iter (S f) i_s off_s end_s i_d off_d end_d =
    if (off_s <? end_s) && (off_d <? end_d)
    then rs <- resolve_fpos i_s off_s end_s ;;
         rd <- resolve_fpos i_d off_d end_d ;;
         fs <- the_ino i_s ;;
         fd <- the_ino i_d ;;
         let len := Z.min (copy_length (fi_ty2 fs) off_s end_s) (copy_length (fi_ty2 fd) off_d end_d) in
         if len =? 0 then ret off_d
         else copy_at_leaf rs off_s i_d rd off_d end_d len ;;;
              copy_iter f i_s (adv_to off_s end_s (off_s + len)) end_s i_d (adv_to off_d end_d (off_d + len)) end_d
    else ret off_d.
Proof. reflexivity. Qed.
Lemma cp_join : forall i_s off_s end_s i_d off_d end_d n1 W W1 W2, 0 <= off_s -> 0 <= off_d -> 0 <= n1 -> off_d + n1 <= end_d ->
  end_s - off_s = end_d - off_d -> (i_s = i_d -> end_s <= off_d \/ end_d <= off_s) ->
  Cp i_s off_s i_d off_d end_d n1 W W1 -> Cp i_s (off_s + n1) i_d (off_d + n1) end_d (end_d - (off_d + n1)) W1 W2 ->
  Cp i_s off_s i_d off_d end_d (end_d - off_d) W W2.
Proof.
  intros i_s off_s end_s i_d off_d end_d n1 W W1 W2 Hs Hd Hn Hl Eq Dj [E1 V1 W1' S1] [E2 V2 W2' S2]. constructor.
  - apply (eff_trans _ _ _ _ W1); [exact E1|]. apply (eff_weak _ _ _ off_d end_d) in E2; [exact E2|lia|lia].
  - intros k Hk. destruct (Z_lt_dec k n1) as [L|L].
    + rewrite (e_out _ _ _ _ _ E2) by lia. apply V1. lia.
    + replace (off_d + k) with (off_d + n1 + (k - n1)) by lia. rewrite V2 by lia. replace (off_s + n1 + (k - n1)) with (off_s + k) by lia.
      destruct (Z.eq_dec i_s i_d) as [X|N]; [|apply (e_oth _ _ _ _ _ E1); [exact N|lia]].
      rewrite X. apply (e_out _ _ _ _ _ E1); [lia|]. specialize (Dj X). lia.
  - auto.
  - intros j o Ho Ns Nd H. apply S2; [exact Ho| | |apply S1; [exact Ho| | |exact H]]; lia.
Qed.
Definition left_of (off end_ : Z) : Z := (end_ - 1) / 1024 - off / 1024.
Lemma sp_copy_iter : forall i_s end_s i_d end_d, end_d <= 2 ^ 56 -> forall f W off_s off_d, Inv W ->
  0 <= off_s <= end_s -> 0 <= off_d <= end_d -> end_s - off_s = end_d - off_d -> (i_s = i_d -> end_s <= off_d \/ end_d <= off_s) ->
  (forall o, off_s <= o < end_s -> wr_at W i_s o) -> (forall o, off_d <= o < end_d -> sole_at W i_d o) ->
  (0 < f)%nat -> (off_s < end_s -> left_of off_s end_s + left_of off_d end_d + 2 <= Z.of_nat f) ->
  spec W (copy_iter f i_s off_s end_s i_d off_d end_d)
    (fun o W' => o = end_d /\ Cp i_s off_s i_d off_d end_d (end_d - off_d) W W') (EW (Eff i_d off_d end_d W)).
Proof.
  intros i_s end_s i_d end_d Hm. induction f as [|f IH]; intros W off_s off_d I Hs Hd Eq Dj Wr So Hf Fu; [lia|].
  rewrite copy_iter_S. destruct ((off_s <? end_s) && (off_d <? end_d)) eqn:C.
  2: { apply sp_ret. split; [lia|]. replace (end_d - off_d) with 0 by lia.
       constructor; [apply eff_refl, I|intros k Hk; lia|auto|auto]. }
  assert (He : forall e W', here W e W' -> EW (Eff i_d off_d end_d W) e W') by (intros e W' [N ->]; split; [exact N|apply eff_refl, I]).
  eapply sp_bind; [eapply sp_conseq; [apply (sp_resolve_fpos W i_s off_s end_s I ltac:(lia))|intros x W' X; exact X|exact He]|].
  cbv beta. intros rs W' [-> Ps].
  eapply sp_bind; [eapply sp_conseq; [apply (sp_resolve_fpos W i_d off_d end_d I ltac:(lia))|intros x W' X; exact X|exact He]|].
  cbv beta. intros rd W' [-> Pd]. sp_ino. sp_ino. cbv zeta.
  pose proof (len_next W i_s off_s end_s ltac:(lia)) as L1. pose proof (len_next W i_d off_d end_d ltac:(lia)) as L2.
  set (len := Z.min _ _). pose proof (leaf_end_gt W i_s off_s ltac:(lia)) as G1. pose proof (leaf_end_gt W i_d off_d ltac:(lia)) as G2.
  assert (Hl0 : 0 < len) by lia. replace (len =? 0) with false by lia.
  eapply sp_bind.
  { apply (sp_copy_at_leaf W i_s off_s end_s i_d off_d end_d len); try assumption; lia. }
  cbv beta. intros _ W1 C1.
  assert (As : adv_to off_s end_s (off_s + len) = off_s + len) by (unfold adv_to, off_clamp; lia).
  assert (Ad : adv_to off_d end_d (off_d + len) = off_d + len) by (unfold adv_to, off_clamp; lia).
  rewrite As, Ad. pose proof (e_inv _ _ _ _ _ (cp_eff _ _ _ _ _ _ _ _ C1)) as I1.
  assert (Al : off_s + len < end_s -> off_s / 1024 + off_d / 1024 + 1 <= (off_s + len) / 1024 + (off_d + len) / 1024).
  { intro Lt. unfold leaf_end in *.
    destruct (cur_dsize (fi_ty2 (w_ino W i_s)) off_s) as [D1|[D1|D1]]; destruct (cur_dsize (fi_ty2 (w_ino W i_d)) off_d) as [D2|[D2|D2]];
      rewrite D1, D2 in *; lia. }
  assert (Mo : off_s / 1024 <= (off_s + len) / 1024 /\ off_d / 1024 <= (off_d + len) / 1024) by (split; apply Z.div_le_mono; lia).
  eapply sp_conseq; [apply (IH W1 (off_s + len) (off_d + len) I1)| |].
  - lia.
  - lia.
  - lia.
  - intro X. specialize (Dj X). lia.
  - intros o Ho. apply (cp_wr _ _ _ _ _ _ _ _ C1); [lia|]. apply Wr. lia.
  - intros o Ho. apply (cp_sole _ _ _ _ _ _ _ _ C1); [lia| | |apply So; lia].
    + intros [X Y]. symmetry in X. specialize (Dj X). lia.
    + lia.
  - unfold left_of in Fu. specialize (Fu ltac:(lia)). assert (off_s / 1024 <= (end_s - 1) / 1024 /\ off_d / 1024 <= (end_d - 1) / 1024) by (split; apply Z.div_le_mono; lia). lia.
  - intro Lt. specialize (Fu ltac:(lia)). specialize (Al Lt). unfold left_of in *. lia.
  - cbv beta. intros o W2 [-> C2]. split; [reflexivity|]. apply (cp_join i_s off_s end_s i_d off_d end_d len W W1 W2); try assumption; lia.
  - intros e W2 [N E2]. split; [exact N|]. apply (eff_trans _ _ _ _ W1); [apply C1|]. apply (eff_weak _ _ _ off_d end_d) in E2; [exact E2|lia|lia].
Qed.

(* ---- the call ---- *)

Lemma sp_seek_data_pos : forall W i off end_, Inv W -> 0 <= off <= end_ -> end_ <= FILE_SIZE_MAX ->
  spec W (seek_data_pos i off end_)
    (fun d W' => W' = W /\ off <= d /\ (d < end_ \/ d = FILE_SIZE_MAX) /\ (forall x, off <= x < Z.min d end_ -> nodata W i x)) (here W).
Proof.
  intros W i off end_ I H Hm s Hs N. unfold seek_data_pos. pose proof (leaf_seek W i end_ false off I H s Hs N) as P.
  destruct (seek_leaf false i off end_ s) as [s' [o [r|e|]]]; [| |contradiction].
  - destruct P as (N' & W' & R & (q & Kq & -> & Hh) & Em). split; [exact N'|]. split; [exact W'|]. cbn [ref_at flref_setup fl_pos].
    split; [lia|]. split; [left; lia|]. intros x Hx. apply Em; [reflexivity|lia].
  - destruct P as (N' & W' & R & Em). destruct (e =? ENOENT) eqn:X.
    + split; [exact N'|]. split; [exact W'|]. split; [lia|]. split; [right; reflexivity|]. intros x Hx. apply Em; [lia|reflexivity|lia].
    + split; [exact N'|]. split; [lia|exact W'].
Qed.
(* what a copy may be sure of: the source range ends within the file and its leaves have been
   written, no leaf of the destination range is shared *)
Record copyable (W : world) (i_s i_d off_in off_out len : Z) : Prop := mkCopyable {
  ca_len : 0 <= len;
  ca_src : off_in + len <= fi_size (w_ino W i_s);
  ca_max : off_in + len <= FILE_SIZE_MAX /\ off_out + len <= FILE_SIZE_MAX;
  ca_wr : forall o, 0 <= off_in <= o -> o < off_in + len -> wr_at W i_s o;
  ca_sole : forall o, 0 <= off_out <= o -> o < off_out + len -> sole_at W i_d o }.
Lemma check_copy_ok : forall off len, 0 <= len -> check_copy_io off len = 0 -> 0 <= off.
Proof.
  intros off len H. unfold check_copy_io. destruct (check_io_range off len =? 0) eqn:E; cbn [negb]; [|lia].
  intros _. apply (check_range_ok off len H). lia.
Qed.
Lemma check_copy_err : forall off len, check_copy_io off len <> ENOENT.
Proof.
  intros off len. unfold check_copy_io. destruct (negb (check_io_range off len =? 0)) eqn:E.
  - unfold check_io_range, EINVAL, EFBIG, EOVERFLOW, ENOENT in *. destruct (off <? 0); [lia|]. destruct (FILE_SIZE_MAX <? off); [lia|].
    destruct (FILE_SIZE_MAX <? len); [lia|]. destruct (off + len <? off); lia.
  - unfold EINVAL, ENOENT. destruct (_ && _); lia.
Qed.
Lemma sp_do_copy : forall W i_s i_d off_in off_out len, Inv W -> copyable W i_s i_d off_in off_out len ->
  spec W (do_copy i_s i_d off_in off_out len)
    (fun r W' => r = len /\ 0 <= off_in /\ 0 <= off_out /\ (i_s = i_d -> off_in + len <= off_out \/ off_out + len <= off_in) /\
       Mod i_d off_out (off_out + len) W W' /\
       (forall k, 0 <= k < len -> content W' i_d (off_out + k) = content W i_s (off_in + k)) /\
       fi_size (w_ino W' i_d) = Z.max (off_out + len) (fi_size (w_ino W i_d)))
    (fun e W' => e <> ENOENT /\ (W' = W \/ (0 <= off_in /\ 0 <= off_out /\ Eff i_d off_out (off_out + len) W W'))).
Proof.
  intros W i_s i_d off_in off_out len I [Cl Cs [Cm1 Cm2] Cw Co]. unfold do_copy. sp_ino.
  assert (He : forall e W', here W e W' -> e <> ENOENT /\ (W' = W \/ (0 <= off_in /\ 0 <= off_out /\ Eff i_d off_out (off_out + len) W W'))).
  { intros e W' [N ->]. split; [exact N|left; reflexivity]. }
  eapply sp_bind; [apply sp_check; intros _; (split; [apply check_copy_err|left; reflexivity])|]. cbv beta. intros [] W' [-> C1].
  eapply sp_bind; [apply sp_check; intros _; (split; [apply check_copy_err|left; reflexivity])|]. cbv beta. intros [] W' [-> C2].
  pose proof (check_copy_ok off_in len Cl C1) as Pi. pose proof (check_copy_ok off_out len Cl C2) as Po. clear C1 C2.
  eapply sp_bind; [apply sp_check; intros N; (split; [|left; reflexivity]); unfold EINVAL, ENOENT in *; destruct (_ && _); lia|]. cbv beta. intros [] W' [-> C3].
  assert (Dj : i_s = i_d -> off_in + len <= off_out \/ off_out + len <= off_in).
  { intros X. unfold EINVAL in C3. destruct ((i_s =? i_d) && (off_in <? off_out + len) && (off_out <? off_in + len)) eqn:Y; [discriminate|]. lia. }
  clear C3.
  apply sp_mf; [|intros e N; split; [exact N|left; reflexivity]]. apply sp_mf; [|intros e N; split; [exact N|left; reflexivity]].
  cbv zeta. replace (Z.min (off_in + len) (fi_size (w_ino W i_s))) with (off_in + len) by lia.
  eapply sp_bind; [eapply sp_conseq; [apply (sp_seek_data_pos W i_s off_in (off_in + len) I ltac:(lia) Cm1)|intros x W' X; exact X|exact He]|].
  cbv beta. intros ds W' (-> & D1 & D2 & D3).
  eapply sp_bind; [eapply sp_conseq; [apply (sp_seek_data_pos W i_d off_out (off_out + len) I ltac:(lia) Cm2)|intros x W' X; exact X|exact He]|].
  cbv beta. intros dd W' (-> & E1 & E2 & E3).
  set (skip := Z.min (if off_in <? ds then ds - off_in else 0) (if off_out <? dd then dd - off_out else 0)).
  assert (Sk : skip = Z.min (ds - off_in) (dd - off_out)).
  { unfold skip. destruct (off_in <? ds) eqn:X; destruct (off_out <? dd) eqn:Y; lia. }
  clearbody skip. set (n0 := Z.min skip len). assert (Hn0 : 0 <= n0 <= len) by lia.
  assert (Os : (if 0 <? skip then adv_to off_in (off_in + len) (off_in + skip) else off_in) = off_in + n0).
  { unfold adv_to, off_clamp, n0. destruct (0 <? skip) eqn:X; lia. }
  assert (Od : (if 0 <? skip then adv_to off_out (off_out + len) (off_out + skip) else off_out) = off_out + n0).
  { unfold adv_to, off_clamp, n0. destruct (0 <? skip) eqn:X; lia. }
  rewrite Os, Od. clear Os Od.
  assert (Z1 : forall k, 0 <= k < n0 -> content W i_s (off_in + k) = 0 /\ content W i_d (off_out + k) = 0).
  { intros k Hk. split; apply nodata_zero; [apply D3|apply E3]; lia. }
  pose proof max_end as Me.
  assert (R1 : len = Z.max 0 len) by lia.
  eapply sp_bind.
  { eapply sp_conseq; [apply (sp_copy_iter i_s (off_in + len) i_d (off_out + len) ltac:(lia) (rounds_copy len) W (off_in + n0) (off_out + n0) I)|intros x W' X; exact X|].
    - lia.
    - lia.
    - lia.
    - intro X. specialize (Dj X). lia.
    - intros o Ho. apply Cw; lia.
    - intros o Ho. apply Co; lia.
    - unfold rounds_copy, HEAD1_LEAF. rewrite <- R1. assert (0 <= len / 1024) by (apply Z.div_pos; lia). lia.
    - intro Lt. unfold rounds_copy, HEAD1_LEAF, left_of. rewrite <- R1. rewrite Z2Nat.id by (assert (0 <= len / 1024) by (apply Z.div_pos; lia); lia). lia.
    - intros e W' [N X]. split; [exact N|]. right. split; [exact Pi|]. split; [exact Po|]. apply (eff_weak _ _ _ off_out (off_out + len)) in X; [exact X|lia|lia]. }
  cbv beta. intros o W1 [-> [Ce Cv _ _]]. pose proof (e_inv _ _ _ _ _ Ce) as I1.
  pose proof Ce as Ce0. apply (eff_weak _ _ _ off_out (off_out + len)) in Ce; [|lia|lia].
  unfold grow_size. eapply sp_bind; [sp_ino; apply sp_put_ino|]. cbv beta. intros [] W2 ->.
  apply sp_ret. destruct (set_size_same W1 i_d (Z.max (off_out + len) (fi_size (w_ino W1 i_d))) (Z.max (off_out + len) (fi_span (w_ino W1 i_d))) I1) as (_ & C & _).
  destruct (size_val W1 i_d (Z.max (off_out + len) (fi_size (w_ino W1 i_d))) (Z.max (off_out + len) (fi_span (w_ino W1 i_d)))) as [S1 S2].
  split; [lia|]. split; [exact Pi|]. split; [exact Po|]. split; [exact Dj|]. split; [apply mod_size, mod_eff, Ce|]. split.
  - intros k Hk. rewrite C. destruct (Z_lt_dec k n0) as [L|L].
    + destruct (Z1 k ltac:(lia)) as [-> <-]. apply (e_out _ _ _ _ _ Ce0); lia.
    + replace (off_out + k) with (off_out + n0 + (k - n0)) by lia. rewrite Cv by lia. f_equal. lia.
  - rewrite S1, (e_size _ _ _ _ _ Ce). reflexivity.
Qed.
