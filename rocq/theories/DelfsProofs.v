From Verif Require Import Base AddrModel AddrProofs WalkModel PackModel PackSpec PackProofs PackSafe DelfsModel DelfsSpec.
From Coq Require Import ZifyBool.

(* ---- whatever goes wrong ---- *)
Section Frame.
Variables (E : env) (v : vol) (R : repo).
(* T: the sizes of new segments are sane *)
Variable T : Prop.
Hypothesis TY : T -> typed E v.
Definition fr (r : repo) (_ : list desc) : Prop := rm_frame v R r /\ (T -> segs_sized R -> segs_sized r).

Lemma fr_spawn : forall r d l, fr r d -> r_segs r l = None -> (T -> 0 <= ls_lsize l) ->
  fr (upd_seg r l (Some (mkSeg (round_lbk (ls_lsize l)) (fun _ => 0)))) d.
Proof.
  intros r d l ((I1 & I2 & I3 & I4) & SZ) N TL. split; [split; [auto|split; [|split; auto]]|].
  - intros x. specialize (I2 x). destruct (lsid_dec x l) as [->|D].
    + rewrite seg_same. rewrite N in I2. right; right. split; [|eexists; reflexivity].
      destruct I2 as [I2|[(I2 & _)|(I2 & _)]]; auto.
    + rewrite seg_other by auto. auto.
  - intros t S l0 g H. destruct (lsid_dec l0 l) as [->|D].
    + rewrite seg_same in H. inversion H; subst g. destruct (round_lbk_facts (ls_lsize l) (TL t)) as (W1 & W2 & W3).
      specialize (TL t). split; cbn [sg_size]; [auto|]. split; lia.
    + rewrite seg_other in H by auto. apply (SZ t S); auto.
Qed.

Lemma fr_remove : forall r d l, fr r d -> own v l -> fr (upd_seg r l None) d.
Proof.
  intros r d l ((I1 & I2 & I3 & I4) & SZ) O. split; [split; [auto|split; [|split; auto]]|].
  - intros x. specialize (I2 x). destruct (lsid_dec x l) as [->|D].
    + rewrite seg_same. auto.
    + rewrite seg_other by auto. auto.
  - intros t S l0 g H. destruct (lsid_dec l0 l) as [->|D].
    + rewrite seg_same in H. discriminate.
    + rewrite seg_other in H by auto. apply (SZ t S); auto.
Qed.

Lemma sat_spawn_any : forall l, (T -> 0 <= ls_lsize l) -> sat fr (spawn_lseg l) (fun _ => True).
Proof.
  intros l TL. unfold spawn_lseg. eapply sat_bind; [apply sat_may_fail|]. intros _ _.
  apply sat_get. intros s HI. destruct (r_segs (s_repo s) l) as [g|] eqn:G; [split; cbn; auto|].
  split; [|exact Logic.I]. cbn [set_repo snd s_repo s_descs]. apply fr_spawn; auto.
Qed.

Lemma sat_stage_bytes : forall lk, (T -> 0 <= ls_lsize (la_lsid (lk_addr lk))) ->
  sat fr (stage_bytes lk) (fun _ => True).
Proof.
  intros lk TL. unfold stage_bytes, require_lseg.
  eapply sat_bind with (V := fun _ => True); [eapply sat_or_noent; [apply sat_stat| |apply sat_spawn_any; auto]|].
  { eapply sat_bind; [apply sat_open|]. intros a _. apply sat_ret; auto. }
  intros _ _. eapply sat_bind; [apply sat_open|]. intros _ _.
  unfold read_at. eapply sat_bind; [apply sat_open|]. intros g _.
  destruct (sg_size g <? la_end (lk_addr lk)); [apply sat_abort|].
  destruct (la_pos (lk_addr lk) <? 0); [apply sat_fail|].
  destruct (la_end (lk_addr lk) >? ls_lsize (la_lsid (lk_addr lk)) + LBK_SIZE); [apply sat_fail|].
  eapply sat_bind; [apply sat_may_fail|]. intros _ _. apply sat_ret; auto.
Qed.

Lemma sat_try_remove : forall l, sat fr (try_remove v l) (fun _ => True).
Proof.
  intros l. unfold try_remove. destruct (bytes_eqb (ls_lvid l) (volume v)) eqn:O; cbn [negb]; [|apply sat_ret; auto].
  apply bytes_eqb_eq in O.
  eapply sat_or_noent; [apply sat_stat| |apply sat_ret; auto].
  unfold remove_lseg. eapply sat_bind; [apply sat_may_fail|]. intros _ _.
  apply sat_get. intros s HI. destruct (r_segs (s_repo s) l) as [g|] eqn:G; [|split; cbn; auto].
  split; [|exact Logic.I]. cbn [set_repo snd s_repo s_descs]. apply fr_remove; auto.
Qed.

Lemma sat_hook : forall x, sat fr (remove_hook v x) (fun _ => True).
Proof.
  intros [sl|sl|[lk|]]; cbn [remove_hook].
  - induction sl as [|x sl IH]; cbn [remove_blocks]; [apply sat_ret; auto|].
    destruct (laddr_isnull (sl_addr x)); [apply sat_fail|].
    eapply sat_bind; [apply sat_try_remove|]. intros _ _. exact IH.
  - induction sl as [|[lk|] sl IH]; cbn [remove_children]; [apply sat_ret; auto| |apply sat_ret; auto].
    eapply sat_bind; [apply sat_try_remove|]. intros _ _. exact IH.
  - apply sat_try_remove.
  - apply sat_fail.
Qed.

Definition sane (lk : link) : Prop := T -> 0 <= ls_lsize (la_lsid (lk_addr lk)).

Lemma sane_proper : forall lk, (T -> proper (lk_addr lk)) -> sane lk.
Proof. intros lk H t. destruct (H t) as (_ & X & _). lia. Qed.

Lemma sat_walk_node : forall h lk, sane lk -> sat fr (walk_node E (remove_hook v) h lk) (fun _ => True).
Proof.
  induction h as [|h IH]; intros lk SL; cbn [walk_node].
  - eapply sat_bind with (V := fun _ => True); [|intros sl _; apply sat_hook].
    unfold stage_leaf. eapply sat_bind; [apply sat_stage_bytes; auto|]. intros b _.
    destruct (e_leaf E lk b); cbn [of_opt]; [apply sat_ret; auto|apply sat_fail].
  - eapply sat_bind with (V := fun sl => forall c, In (Some c) sl -> sane c).
    + unfold stage_node. eapply sat_bind; [apply sat_stage_bytes; auto|]. intros b _.
      destruct (e_node E (S h) lk b) as [sl|] eqn:SE; cbn [of_opt]; [|apply sat_fail].
      apply sat_ret. intros c IN. apply sane_proper. intros t. eapply (ty_node _ _ (TY t)); eauto.
    + intros sl HS. eapply sat_bind with (V := fun _ => True); [|intros _ _; apply sat_hook].
      induction sl as [|[c|] sl IHs]; cbn [walk_slots]; [apply sat_ret; auto| |apply sat_ret; auto].
      intros s HI. destruct (IH c (HS c (or_introl eq_refl)) s HI) as (H1 & _).
      assert (K : sat fr (walk_slots (walk_node E (remove_hook v) h) sl) (fun _ => True)).
      { apply IHs. intros; apply HS; right; auto. }
      destruct (walk_node E (remove_hook v) h c s) as [[u|e|] s']; cbn [snd fst] in *; [apply K; auto| |split; auto].
      destruct e; cbn [snd fst]; try (split; auto; fail). apply K; auto.
Qed.

Lemma sat_walk_spaces : forall roots, (forall lk, In (Some lk) roots -> sane lk) ->
  sat fr (walk_spaces E (remove_hook v) roots) (fun _ => True).
Proof.
  induction roots as [|o q IH]; intros HS; cbn [walk_spaces]; [apply sat_ret; auto|].
  eapply sat_bind with (V := fun _ => True); [|intros _ _; apply IH; intros; apply HS; right; auto].
  unfold walk_tree. eapply sat_bind with (V := fun _ => True); [|intros _ _; apply sat_hook].
  destruct o as [lk|]; [|apply sat_ret; auto].
  eapply sat_or_noent; [apply sat_walk_node; apply HS; left; auto|apply sat_ret; auto|apply sat_ret; auto].
Qed.

Lemma sat_get_any : forall A (I : repo -> list desc -> Prop) (k : repo -> M A) (V : A -> Prop),
  (forall r, sat I (k r) V) -> sat I (bind get_repo k) V.
Proof. intros A I k V H. apply sat_get. intros s HI. apply H; auto. Qed.

Lemma sat_stat_bootrec : forall (I : repo -> list desc -> Prop) c, sat I (stat_bootrec c) (fun _ => True).
Proof.
  intros I c. unfold stat_bootrec. eapply sat_bind; [apply sat_may_fail|]. intros _ _.
  apply sat_get_any. intros r. destruct (negb (r_refs r c)); [apply sat_fail|].
  eapply sat_bind; [apply sat_may_fail|]. intros _ _.
  destruct (r_blobs r (ca_hash c)) as [e|]; [|apply sat_fail].
  destruct (Z.of_nat (length e) =? BOOTREC_SIZE); [apply sat_ret; auto|apply sat_fail].
Qed.

Lemma sat_load_bootrec : forall (I : repo -> list desc -> Prop) c, sat I (load_bootrec E c) (fun _ => True).
Proof.
  intros I c. unfold load_bootrec. eapply sat_bind; [apply sat_may_fail|]. intros _ _.
  apply sat_get_any. intros r. destruct (negb (r_refs r c)); [apply sat_fail|].
  eapply sat_bind; [apply sat_may_fail|]. intros _ _.
  destruct (r_blobs r (ca_hash c)) as [e|]; [|apply sat_fail].
  destruct (Z.of_nat (length e) <? BOOTREC_SIZE); [apply sat_fail|]. cbv zeta.
  destruct (negb _); [apply sat_fail|].
  destruct (e_bdec E _); [apply sat_ret; auto|apply sat_fail].
Qed.

Lemma sat_unlink : sat fr (unlink_bootrec (v_boot v)) (fun _ => True).
Proof.
  unfold unlink_bootrec. eapply sat_bind; [apply sat_stat_bootrec|]. intros _ _.
  eapply sat_bind with (V := fun _ => True).
  - unfold unlink_blob. eapply sat_bind; [apply sat_may_fail|]. intros _ _.
    apply sat_get. intros s ((I1 & I2 & I3 & I4) & SZ).
    destruct (r_blobs (s_repo s) (ca_hash (v_boot v))); [|split; [split; [split; auto|]|]; cbn; auto].
    split; [|exact Logic.I]. cbn [set_repo snd s_repo s_descs]. split; [|auto].
    split; [auto|split; [auto|split; [|auto]]]. intros h N. cbn.
    destruct (bytes_eqb h (ca_hash (v_boot v))) eqn:X; [apply bytes_eqb_eq in X; congruence|auto].
  - intros _ _. unfold remove_ref. eapply sat_bind; [apply sat_may_fail|]. intros _ _.
    apply sat_get. intros s ((I1 & I2 & I3 & I4) & SZ).
    destruct (r_refs (s_repo s) (v_boot v)); [|split; [split; [split; auto|]|]; cbn; auto].
    split; [|exact Logic.I]. cbn [set_repo snd s_repo s_descs]. split; [|auto].
    split; [auto|split; [auto|split; [auto|]]]. intros c N. cbn. rewrite caddr_eqb_neq by auto. cbn [negb andb]. auto.
Qed.

Lemma sat_reload : forall fossil, (T -> 0 <= ls_lsize (la_lsid (v_super v))) -> sat fr (reload_fs E v fossil) (fun _ => True).
Proof.
  intros fossil TL. unfold reload_fs.
  eapply sat_bind; [apply sat_stat_bootrec|]. intros _ _.
  eapply sat_bind; [apply sat_load_bootrec|]. intros _ _.
  eapply sat_bind; [apply sat_open|]. intros _ _.
  eapply sat_bind; [apply (sat_stage_bytes (mkLink (v_super v) [])); auto|]. intros _ _.
  destruct fossil; [apply sat_fail|apply sat_ret; auto].
Qed.

Lemma sat_remove : forall fossil, sat fr (fs_remove E v fossil) (fun _ => True).
Proof.
  intros fossil. unfold fs_remove, walk_unref.
  eapply sat_bind; [apply sat_reload|].
  { intros t. destruct (ty_super _ _ (TY t)) as (_ & X & _). lia. }
  intros _ _. eapply sat_bind with (V := fun _ => True).
  - eapply sat_bind; [apply sat_walk_spaces|intros _ _; apply sat_try_remove].
    intros lk IN. apply sane_proper. intros t. apply (ty_root _ _ (TY t)); auto.
  - intros _ _. apply sat_unlink.
Qed.
End Frame.

Lemma rm_frame_refl : forall v R, rm_frame v R R.
Proof. intros v R. split; [auto|split; [auto|split; auto]]. Qed.

Lemma fs_remove_frame : forall E v fossil s, rm_frame v (s_repo s) (s_repo (snd (fs_remove E v fossil s))).
Proof.
  intros E v fossil s.
  destruct (sat_remove E v (s_repo s) False (fun x => match x with end) fossil s) as (H & _).
  - split; [apply rm_frame_refl|intros []].
  - apply H.
Qed.

Lemma fs_remove_sized : forall E v fossil s, typed E v -> segs_sized (s_repo s) ->
  segs_sized (s_repo (snd (fs_remove E v fossil s))).
Proof.
  intros E v fossil s TY SZ.
  destruct (sat_remove E v (s_repo s) True (fun _ => TY) fossil s) as (H & _).
  - split; [apply rm_frame_refl|auto].
  - apply H; auto.
Qed.

(* ---- when nothing is missing ---- *)
Section Paths.
Variables (E : env) (R : repo) (v : vol).
Notation np := (node_path E R v).

Lemma reads_one : forall a b1 b2, reads R a b1 -> reads R a b2 -> b1 = b2.
Proof. intros a b1 b2. apply reads_unique. Qed.

Lemma np_det : forall p h lk, np p h lk -> forall h' lk', np p h' lk' -> h' = h /\ lk' = lk.
Proof.
  intros p h lk N. induction N as [i lk H|p h lk b sl i c N IH RB SL H]; intros h' lk' N'.
  - inversion N' as [i' lk0 H' |p' h0 lk0 b' sl' i' c' N0 RB' SL' H']; subst.
    + split; congruence.
    + inversion N0.
  - inversion N' as [i' lk0 H' |p' h0 lk0 b' sl' i' c' N0 RB' SL' H']; subst.
    + inversion N.
    + destruct (IH _ _ N0) as (X & ->). inversion X; subst.
      rewrite (reads_one _ _ _ RB' RB) in SL'. split; congruence.
Qed.

Lemma np_nonnil : forall p h lk, np p h lk -> p <> [].
Proof. intros p h lk N. inversion N; discriminate. Qed.

Lemma np_inv : forall i q h c, np (i :: q) h c ->
  (q = [] /\ h = 4%nat /\ nth_error (v_roots v) i = Some (Some c)) \/
  (exists lk b sl, np q (S h) lk /\ reads R (lk_addr lk) b /\ e_node E (S h) lk b = Some sl /\ nth_error sl i = Some (Some c)).
Proof. intros i q h c N. inversion N; subst; [left; auto|right; eauto 8]. Qed.

Lemma np_prefix : forall a p h lk, np (a ++ p) h lk -> p <> [] -> exists h' lk', np p h' lk' /\ (h <= h')%nat.
Proof.
  induction a as [|i a IH]; intros p h lk N NE; cbn [app] in N; [eauto|].
  apply np_inv in N. destruct N as [(X & _)|(lk0 & b & sl & N0 & _)].
  - apply app_eq_nil in X. destruct X; contradiction.
  - destruct (IH _ _ _ N0 NE) as (h' & lk' & X & L). exists h', lk'. split; auto. lia.
Qed.

Lemma np_node_at : forall p h lk, np p h lk -> node_at E R v h lk.
Proof.
  intros p h lk N. induction N as [i lk H|p h lk b sl i c N IH RB SL H].
  - apply na_root. eapply nth_error_In; eauto.
  - eapply na_child; eauto. eapply nth_error_In; eauto.
Qed.

Lemma node_at_np : forall h lk, node_at E R v h lk -> exists p, np p h lk.
Proof.
  intros h lk N. induction N as [lk IN|h lk b sl c N (p & IH) RB SL IN].
  - apply In_nth_error in IN. destruct IN as (i & IN). exists [i]. apply np_root; auto.
  - apply In_nth_error in IN. destruct IN as (i & IN). exists (i :: p). eapply np_child; eauto.
Qed.

Definition under (p : list nat) (l : lsid) : Prop :=
  (exists a i h lk, np ((i :: a) ++ p) h lk /\ l = la_lsid (lk_addr lk)) \/
  (exists a, block_seg E R v (a ++ p) l).
Definition needed (p : list nat) (l : lsid) : Prop :=
  exists a h lk, np (a ++ p) h lk /\ l = la_lsid (lk_addr lk).

Lemma branch : forall (a b : list nat) i k p, a ++ i :: p = b ++ k :: p -> i = k.
Proof.
  intros a b i k p H. change (i :: p) with ([i] ++ p) in H. change (k :: p) with ([k] ++ p) in H.
  rewrite !app_assoc in H. apply app_inv_tail in H. apply app_inj_tail in H. tauto.
Qed.

Hypothesis PT : parted E R v.

Lemma apart : forall i k p l, i <> k -> under (i :: p) l -> needed (k :: p) l -> own v l -> False.
Proof.
  intros i k p l D U (b & h' & lk' & N' & ->) O. destruct U as [(a & x & h & lk & N & EQ)|(a & BS)].
  - cbn [app] in N. assert (O2 : own v (la_lsid (lk_addr lk))) by (rewrite <- EQ; auto). destruct b as [|y b]; cbn [app] in N'.
    + destruct (pt_nodes _ _ _ PT _ _ _ _ _ _ _ _ N N' O2 (eq_sym EQ)) as (X & _).
      apply (f_equal (@length nat)) in X. rewrite app_length in X. cbn in X. lia.
    + destruct (pt_nodes _ _ _ PT _ _ _ _ _ _ _ _ N N' O2 (eq_sym EQ)) as (X & _).
      apply branch in X. contradiction.
  - apply (pt_block _ _ _ PT _ _ _ _ _ BS O N'). auto.
Qed.

Lemma apart_root : forall i k l lk, i <> k -> np [i] 4 lk -> l = la_lsid (lk_addr lk) -> needed [k] l -> own v l -> False.
Proof.
  intros i k l lk D N -> (b & h' & lk' & N' & EQ) O. destruct b as [|y b]; cbn [app] in N'.
  - destruct (pt_nodes _ _ _ PT _ _ _ _ _ _ _ _ N N' O EQ) as (_ & X). auto.
  - destruct (pt_nodes _ _ _ PT _ _ _ _ _ _ _ _ N N' O EQ) as (X & _). destruct b; discriminate.
Qed.

(* what lies below a node: its children and what lies below them *)
Lemma under_split : forall p h lk b sl l, np p (S h) lk -> reads R (lk_addr lk) b -> e_node E (S h) lk b = Some sl ->
  under p l -> exists i c, nth_error sl i = Some (Some c) /\ (l = la_lsid (lk_addr c) \/ under (i :: p) l).
Proof.
  intros p h lk b sl l N RB SL U.
  assert (K : forall a i h' lk', np (a ++ i :: p) h' lk' -> exists c, nth_error sl i = Some (Some c) /\ np (i :: p) h c).
  { intros a i h' lk' N'. apply np_prefix in N'; [|discriminate]. destruct N' as (h1 & c & N1 & _).
    destruct (np_inv _ _ _ _ N1) as [(X & _)|(lk0 & b' & sl' & N0 & RB' & SL' & H')].
    - exfalso. apply (np_nonnil _ _ _ N X).
    - destruct (np_det _ _ _ N _ _ N0) as (X & ->). inversion X; subst.
      rewrite (reads_one _ _ _ RB' RB) in SL'. exists c. split; [congruence|auto]. }
  destruct U as [(a & i & h' & lk' & N' & ->)|(a & lk' & b' & sl' & x & N' & RB' & SL' & IN & ->)].
  - destruct (exists_last (l := i :: a) ltac:(discriminate)) as (a' & j & EQ). rewrite EQ in N'.
    rewrite <- app_assoc in N'. cbn [app] in N'. destruct (K _ _ _ _ N') as (c & NC & N1).
    exists j, c. split; auto. destruct a' as [|y a'].
    + cbn [app] in N'. destruct (np_det _ _ _ N1 _ _ N') as (_ & ->). auto.
    + right. left. exists a', y, h', lk'. auto.
  - destruct a as [|i a].
    + cbn [app] in N'. destruct (np_det _ _ _ N _ _ N') as (X & _). discriminate.
    + destruct (exists_last (l := i :: a) ltac:(discriminate)) as (a' & j & EQ). rewrite EQ in *.
      rewrite <- app_assoc in N'. cbn [app] in N'. destruct (K _ _ _ _ N') as (c & NC & N1).
      exists j, c. split; auto. right. right. exists a', lk', b', sl', x. split; auto.
Qed.

Lemma under_in : forall p i l, under (i :: p) l -> under p l.
Proof.
  intros p i l [(a & x & h & lk & N & EQ)|(a & BS)].
  - left. exists (a ++ [i]), x, h, lk. split; auto. cbn [app] in *. rewrite <- app_assoc. auto.
  - right. exists (a ++ [i]). rewrite <- app_assoc. auto.
Qed.
Lemma needed_in : forall p i l, needed (i :: p) l -> needed p l.
Proof.
  intros p i l (a & h & lk & N & EQ). exists (a ++ [i]), h, lk. split; auto. rewrite <- app_assoc. auto.
Qed.
End Paths.

Section Complete.
Variables (E : env) (R : repo) (v : vol).
Hypothesis SO : sound E R v.
Hypothesis PT : parted E R v.
Notation np := (node_path E R v).
Notation under := (under E R v).
Notation needed := (needed E R v).

(* some of the segments X of the volume are gone, all of G are *)
Definition part (X G : lsid -> Prop) (s : st) : Prop :=
  r_packs (s_repo s) = r_packs R /\ r_blobs (s_repo s) = r_blobs R /\ r_refs (s_repo s) = r_refs R /\
  (forall l, r_segs (s_repo s) l = r_segs R l \/ (X l /\ own v l /\ r_segs (s_repo s) l = None)) /\
  (forall l, own v l -> G l -> r_segs (s_repo s) l = None).

Lemma part_nofate : forall X G, nofate (part X G).
Proof. intros X G r f d f' H. exact H. Qed.

Lemma part_weak : forall (X G X' G' : lsid -> Prop) s, part X G s -> (forall l, X l -> X' l) -> (forall l, own v l -> G' l -> G l) -> part X' G' s.
Proof.
  intros X G X' G' s (P1 & P2 & P3 & P4 & P5) HX HG. split; [auto|split; [auto|split; [auto|split; [|auto]]]].
  intros l. destruct (P4 l) as [H|(H & O & N)]; auto.
Qed.

Lemma own_dec : forall l, own v l \/ ~ own v l.
Proof.
  intros l. destruct (bytes_eqb (ls_lvid l) (volume v)) eqn:O; [left; apply bytes_eqb_eq; auto|].
  right. intros H. unfold own in H. fold (volume v) in H. apply bytes_eqb_eq in H. congruence.
Qed.

Lemma h_try_remove : forall (X G : lsid -> Prop) l,
  hoare (part X G) (try_remove v l) (fun _ => part (fun x => X x \/ x = l) (fun x => G x \/ x = l)).
Proof.
  intros X G l. unfold try_remove. destruct (bytes_eqb (ls_lvid l) (volume v)) eqn:O; cbn [negb].
  - assert (OW : own v l) by (apply bytes_eqb_eq; auto). clear O.
    intros s HP.
    assert (K0 : forall f d, r_segs (s_repo s) l = None ->
        part (fun x => X x \/ x = l) (fun x => G x \/ x = l) (mkSt (s_repo s) f d)).
    { intros f d N. destruct HP as (P1 & P2 & P3 & P4 & P5). split; [auto|split; [auto|split; [auto|split]]]; cbn [s_repo].
      - intros x. destruct (P4 x) as [H|(H & Ox & Nx)]; auto.
      - intros x Ox [H| ->]; auto. }
    assert (K1 : forall f d, part (fun x => X x \/ x = l) (fun x => G x \/ x = l) (mkSt (upd_seg (s_repo s) l None) f d)).
    { intros f d. destruct HP as (P1 & P2 & P3 & P4 & P5). split; [auto|split; [auto|split; [auto|split]]]; cbn [s_repo].
      - intros x. destruct (lsid_dec x l) as [->|D]; [rewrite seg_same; auto|rewrite seg_other by auto].
        destruct (P4 x) as [H|(H & Ox & Nx)]; auto.
      - intros x Ox HG. destruct (lsid_dec x l) as [->|D]; [rewrite seg_same; auto|rewrite seg_other by auto].
        destruct HG as [HG| ->]; [auto|contradiction]. }
    assert (SZ : forall g, r_segs (s_repo s) l = Some g -> sg_size g >? ls_lsize l + LBK_SIZE = false).
    { intros g G0. destruct HP as (_ & _ & _ & P4 & _). destruct (P4 l) as [H|(_ & _ & H)]; [|congruence].
      rewrite H in G0. destruct (so_sized _ _ _ SO _ _ G0) as (_ & Z2). lia. }
    destruct s as [r f d]. cbn [s_repo] in *.
    unfold or_noent, stat_lseg, remove_lseg, bind, may_fail, next_fate, get_repo. cbn [s_fates s_repo s_descs].
    destruct f as [|[|n] f]; cbn [s_repo s_descs s_fates].
    + destruct (r_segs r l) as [g|] eqn:G0; cbn [fail ret s_repo].
      * rewrite (SZ g eq_refl). cbn [ret s_fates s_repo]. rewrite G0. cbn [set_repo s_fates s_descs].
        split; [apply K1|apply incl_refl].
      * split; [apply K0; auto|apply incl_refl].
    + destruct (r_segs r l) as [g|] eqn:G0; cbn [fail ret s_repo].
      * rewrite (SZ g eq_refl). cbn [ret s_fates s_repo s_descs].
        destruct f as [|[|n] f]; cbn [s_repo s_descs s_fates].
        -- rewrite G0. cbn [set_repo s_fates s_descs]. split; [apply K1|intros y []].
        -- rewrite G0. cbn [set_repo s_fates s_descs]. split; [apply K1|]. apply incl_tl, incl_tl, incl_refl.
        -- split; [discriminate|]. exists n. right; left; auto.
      * split; [apply K0; auto|apply incl_tl, incl_refl].
    + split; [discriminate|]. exists n. left; auto.
  - apply h_ret. intros s HP. eapply part_weak; [exact HP|auto|]. intros x Ox [H| ->]; auto.
    unfold own in Ox. fold (volume v) in Ox. apply bytes_eqb_eq in Ox. congruence.
Qed.

Lemma h_remove_blocks : forall sl X G, (forall x, In x sl -> laddr_isnull (sl_addr x) = false) ->
  hoare (part X G) (remove_blocks v sl)
    (fun _ => part (fun l => X l \/ exists x, In x sl /\ l = la_lsid (sl_addr x))
                   (fun l => G l \/ exists x, In x sl /\ l = la_lsid (sl_addr x))).
Proof.
  induction sl as [|x sl IH]; intros X G NN; cbn [remove_blocks].
  - apply h_ret. intros s HP. eapply part_weak; [exact HP|auto|]. intros l _ [H|(x & [] & _)]; auto.
  - rewrite (NN x (or_introl eq_refl)).
    eapply h_bind; [apply h_try_remove|]. intros u0. cbn beta. clear u0.
    eapply h_conseq; [apply IH; intros; apply NN; right; auto|intros s HP; exact HP|]. cbn beta.
    intros u0 s HP. eapply part_weak; [exact HP| |].
    + intros l [[H|H]|(y & IN & H)]; auto; right; [exists x; split; [left; auto|auto]|exists y; split; [right; auto|auto]].
    + intros l _ [H|(y & [->|IN] & H)]; auto. right. exists y. auto.
Qed.

Lemma h_remove_children : forall sl X G, dense sl ->
  hoare (part X G) (remove_children v sl)
    (fun _ => part (fun l => X l \/ exists c, In (Some c) sl /\ l = la_lsid (lk_addr c))
                   (fun l => G l \/ exists c, In (Some c) sl /\ l = la_lsid (lk_addr c))).
Proof.
  induction sl as [|[c|] sl IH]; intros X G D; cbn [remove_children].
  - apply h_ret. intros s HP. eapply part_weak; [exact HP|auto|]. intros l _ [H|(x & [] & _)]; auto.
  - eapply h_bind; [apply h_try_remove|]. intros u0. cbn beta. clear u0.
    eapply h_conseq; [apply IH; eapply dense_in; eauto|intros s HP; exact HP|]. cbn beta.
    intros u0 s HP. eapply part_weak; [exact HP| |].
    + intros l [[H|H]|(y & IN & H)]; auto; right; [exists c; split; [left; auto|auto]|exists y; split; [right; auto|auto]].
    + intros l _ [H|(y & [EQ|IN] & H)]; auto; [inversion EQ; subst; auto|]. right. exists y. auto.
  - apply h_ret. intros s HP. eapply part_weak; [exact HP|auto|]. intros l _ [H|(y & [EQ|IN] & H)]; auto; [discriminate|].
    exfalso. eapply dense_none; eauto.
Qed.

(* a node whose segment was not touched is read as it was *)
Lemma h_stage : forall X G p h lk b, np p h lk -> reads R (lk_addr lk) b ->
  (own v (la_lsid (lk_addr lk)) -> ~ X (la_lsid (lk_addr lk))) ->
  hoare (part X G) (stage_bytes lk) (fun x s => x = b /\ part X G s).
Proof.
  intros X G p h lk b N RB NX.
  pose proof (so_live _ _ _ SO _ (lv_node _ _ _ _ _ (np_node_at _ _ _ _ _ _ N))) as (PR & _).
  destruct (reads_seg _ _ _ PR RB) as (g & G0 & EN & ->).
  intros s HP. assert (GS : r_segs (s_repo s) (la_lsid (lk_addr lk)) = Some g).
  { destruct HP as (_ & _ & _ & P4 & _). destruct (P4 (la_lsid (lk_addr lk))) as [H|(H1 & H2 & _)]; [congruence|].
    exfalso. apply NX; auto. }
  pose proof (h_stage_bytes (s_repo s) (s_descs s) lk g GS (so_sized _ _ _ SO _ _ G0) PR EN s (conj eq_refl eq_refl)) as H.
  destruct (stage_bytes lk s) as [[x|e|] s']; auto.
  destruct H as ((H1 & H2 & H3) & H4). split; auto. split; auto.
  unfold part in *. rewrite H2. auto.
Qed.

Definition plus (X U : lsid -> Prop) : lsid -> Prop := fun l => X l \/ U l.

Lemma h_walk_slots : forall (f : link -> M unit) p h sl i X G,
  (forall j c, nth_error sl j = Some (Some c) -> np ((i + j)%nat :: p) h c) ->
  (forall j c X G, nth_error sl j = Some (Some c) ->
     (forall l, needed ((i + j)%nat :: p) l -> own v l -> ~ X l) ->
     hoare (part X G) (f c) (fun _ => part (plus X (under ((i + j)%nat :: p))) (plus G (under ((i + j)%nat :: p))))) ->
  (forall j c l, nth_error sl j = Some (Some c) -> needed ((i + j)%nat :: p) l -> own v l -> ~ X l) ->
  dense sl ->
  hoare (part X G) (walk_slots f sl)
    (fun _ => part (plus X (fun l => exists j c, nth_error sl j = Some (Some c) /\ under ((i + j)%nat :: p) l))
                   (plus G (fun l => exists j c, nth_error sl j = Some (Some c) /\ under ((i + j)%nat :: p) l))).
Proof.
  intros f p h sl. induction sl as [|[c|] sl IH]; intros i X G NP HF DX D; cbn [walk_slots].
  - apply h_ret. intros s HP. eapply part_weak; [exact HP|left; auto|]. intros l _ [H|(j & c & H & _)]; auto.
    destruct j; discriminate.
  - assert (I0 : (i + 0)%nat = i) by lia.
    assert (HC : hoare (part X G) (f c) (fun _ => part (plus X (under (i :: p))) (plus G (under (i :: p))))).
    { rewrite <- I0. apply HF; [reflexivity|]. intros l. apply (DX 0%nat c); reflexivity. }
    assert (HR : hoare (part (plus X (under (i :: p))) (plus G (under (i :: p)))) (walk_slots f sl)
       (fun _ => part (plus (plus X (under (i :: p))) (fun l => exists j c, nth_error sl j = Some (Some c) /\ under ((S i + j)%nat :: p) l))
                      (plus (plus G (under (i :: p))) (fun l => exists j c, nth_error sl j = Some (Some c) /\ under ((S i + j)%nat :: p) l)))).
    { apply IH.
      - intros j c' H. replace (S i + j)%nat with (i + S j)%nat by lia. apply NP. auto.
      - intros j c' X0 G0 H. replace (S i + j)%nat with (i + S j)%nat by lia. apply HF. auto.
      - intros j c' l H ND O [HX|HU].
        + replace (S i + j)%nat with (i + S j)%nat in ND by lia. eapply (DX (S j)); eauto.
        + eapply (apart E R v PT i (S i + j)%nat p l); eauto. lia.
      - eapply dense_in; eauto. }
    intros s HP. specialize (HC s HP). destruct (f c s) as [[u0|e|] s']; [| |auto].
    + destruct HC as (HC & IN1). specialize (HR s' HC). destruct (walk_slots f sl s') as [[u1|e|] s'']; auto.
      * destruct HR as (HR & IN2). split; [|eapply incl_tran; eauto].
        eapply part_weak; [exact HR| |].
        -- intros l [[H|H]|(j & c' & H1 & H2)]; [left; auto|right; exists 0%nat, c; rewrite I0; split; auto|].
           right. exists (S j), c'. split; auto. replace (i + S j)%nat with (S i + j)%nat by lia. auto.
        -- intros l _ [H|(j & c' & H1 & H2)]; [left; left; auto|]. destruct j as [|j].
           ++ left. right. rewrite I0 in H2. auto.
           ++ right. exists j, c'. split; auto. replace (S i + j)%nat with (i + S j)%nat by lia. auto.
      * destruct HR as (HR & F). split; auto. eapply faulty_incl; eauto.
    + destruct HC as (NE & F). destruct e; try (split; auto; fail). congruence.
  - apply h_ret. intros s HP. eapply part_weak; [exact HP|left; auto|]. intros l _ [H|(j & c & H & _)]; auto.
    exfalso. destruct j as [|j]; [discriminate|]. eapply dense_none; [exact D|]. eapply nth_error_In; exact H.
Qed.

Lemma h_walk_node : forall h p lk X G, np p h lk ->
  (forall l, needed p l -> own v l -> ~ X l) ->
  hoare (part X G) (walk_node E (remove_hook v) h lk) (fun _ => part (plus X (under p)) (plus G (under p))).
Proof.
  induction h as [|h IH]; intros p lk X G N DX; cbn [walk_node];
    destruct (so_live _ _ _ SO _ (lv_node _ _ _ _ _ (np_node_at _ _ _ _ _ _ N))) as (PR & b & RB);
    assert (NX : own v (la_lsid (lk_addr lk)) -> ~ X (la_lsid (lk_addr lk)))
      by (intros O; apply DX; auto; exists []; eexists; exists lk; split; [exact N|auto]).
  - destruct (so_leaf _ _ _ SO _ _ (np_node_at _ _ _ _ _ _ N) RB) as (sl & SL).
    unfold stage_leaf. eapply h_bind with (Q := fun x s => x = sl /\ part X G s).
    + eapply h_bind; [eapply h_stage; eauto|]. intros x. cbn beta. apply h_and. intros ->.
      rewrite SL. apply h_ret. auto.
    + intros x. cbn beta. apply h_and. intros ->. cbn [remove_hook].
      eapply h_conseq; [apply h_remove_blocks|intros s HP; exact HP|].
      * intros x IN. eapply (pt_slots _ _ _ PT); eauto.
      * cbn beta. intros u0 s HP. eapply part_weak; [exact HP| |].
        -- intros l [H|(x & IN & H)]; [left; auto|]. right. right. exists []. exists lk, b, sl, x. split; auto.
        -- intros l _ [H|[(a & i & h' & lk' & N' & H)|(a & lk' & b' & sl' & x & N' & RB' & SL' & IN & H)]]; auto.
           ++ exfalso. cbn [app] in N'. destruct (np_inv _ _ _ _ _ _ _ N') as [(Y & _)|(lk0 & b0 & sl0 & N0 & _)].
              ** apply app_eq_nil in Y. destruct Y as (_ & Y). apply (np_nonnil _ _ _ _ _ _ N Y).
              ** apply np_prefix in N0; [|eapply np_nonnil; eauto]. destruct N0 as (h1 & lk1 & N1 & L1).
                 destruct (np_det _ _ _ _ _ _ N _ _ N1) as (HH & _). lia.
           ++ destruct a as [|i a].
              ** cbn [app] in N'. destruct (np_det _ _ _ _ _ _ N _ _ N') as (_ & ->).
                 rewrite (reads_one _ _ _ _ RB' RB) in SL'. right. exists x. split; [congruence|auto].
              ** exfalso. cbn [app] in N'. destruct (np_inv _ _ _ _ _ _ _ N') as [(Y & _)|(lk0 & b0 & sl0 & N0 & _)].
                 { apply app_eq_nil in Y. destruct Y as (_ & Y). apply (np_nonnil _ _ _ _ _ _ N Y). }
                 apply np_prefix in N0; [|eapply np_nonnil; eauto]. destruct N0 as (h1 & lk1 & N1 & L1).
                 destruct (np_det _ _ _ _ _ _ N _ _ N1) as (HH & _). lia.
  - destruct (so_node _ _ _ SO _ _ _ (np_node_at _ _ _ _ _ _ N) RB) as (sl & SL & D).
    assert (CH : forall j c, nth_error sl j = Some (Some c) -> np (j :: p) h c) by (intros; eapply np_child; eauto).
    unfold stage_node. eapply h_bind with (Q := fun x s => x = sl /\ part X G s).
    + eapply h_bind; [eapply h_stage; eauto|]. intros x. cbn beta. apply h_and. intros ->.
      rewrite SL. apply h_ret. auto.
    + intros x. cbn beta. apply h_and. intros ->.
      eapply h_bind.
      * apply (h_walk_slots _ p h sl 0 X G).
        -- intros j c H. apply CH; auto.
        -- intros j c X0 G0 H DX0. apply IH; [apply CH; auto|exact DX0].
        -- intros j c l H ND O. apply DX; auto. eapply needed_in; eauto.
        -- exact D.
      * intros u0. cbn beta. clear u0. cbn [remove_hook].
        eapply h_conseq; [apply h_remove_children; exact D|intros s HP; exact HP|].
        cbn beta. intros u0 s HP. eapply part_weak; [exact HP| |].
        -- intros l [[H|(j & c & H1 & H2)]|(c & IN & H)].
           ++ left; auto.
           ++ right. eapply under_in; eauto.
           ++ right. apply In_nth_error in IN. destruct IN as (j & IN). left. exists [], j, h, c. split; [apply CH; auto|auto].
        -- intros l _ [H|U]; [left; left; auto|].
           destruct (under_split E R v p h lk b sl l N RB SL U) as (j & c & NC & [H|H]).
           ++ right. exists c. split; [eapply nth_error_In; eauto|auto].
           ++ left. right. exists j, c. split; auto.
Qed.

(* everything in and below the i-th object space *)
Definition space (i : nat) (l : lsid) : Prop :=
  under [i] l \/ exists lk, np [i] 4 lk /\ l = la_lsid (lk_addr lk).

Lemma h_walk_spaces : forall roots i X G,
  (forall j o, nth_error roots j = Some o -> nth_error (v_roots v) (i + j) = Some o) ->
  (forall j l, (i <= j)%nat -> needed [j] l -> own v l -> ~ X l) ->
  hoare (part X G) (walk_spaces E (remove_hook v) roots)
    (fun _ => part (plus X (fun l => exists j, (i <= j < i + length roots)%nat /\ space j l))
                   (plus G (fun l => exists j, (i <= j < i + length roots)%nat /\ space j l))).
Proof.
  induction roots as [|o q IH]; intros i X G NR DX; cbn [walk_spaces].
  - apply h_ret. intros s HP. eapply part_weak; [exact HP|left; auto|]. intros l _ [H|(j & H & _)]; auto. cbn in H. lia.
  - assert (I0 : (i + 0)%nat = i) by lia.
    pose proof (NR 0%nat o eq_refl) as R0. rewrite I0 in R0.
    destruct o as [lk|]; [|exfalso; eapply (pt_roots _ _ _ PT); eauto].
    assert (N : np [i] 4 lk) by (apply np_root; auto).
    eapply h_bind with (Q := fun _ => part (plus X (space i)) (plus G (space i))).
    + unfold walk_tree. eapply h_bind with (Q := fun _ => part (plus X (under [i])) (plus G (under [i]))).
      * eapply h_or_noent; [apply h_walk_node; [exact N|intros l; apply DX; lia]|].
        intros u0. cbn beta. clear u0. apply h_ret. auto.
      * intros u0. cbn beta. clear u0. cbn [remove_hook].
        eapply h_conseq; [apply h_try_remove|intros s HP; exact HP|]. cbn beta. intros u0 s HP. eapply part_weak; [exact HP| |].
        -- intros l [[H|H]|H]; [left; auto|right; left; auto|right; right; eauto].
        -- intros l _ [H|[H|(lk' & N' & H)]]; [left; left; auto|left; right; auto|].
           destruct (np_det _ _ _ _ _ _ N _ _ N') as (_ & ->). auto.
    + intros u0. cbn beta. clear u0.
      eapply h_conseq; [apply (IH (S i))|intros s HP; exact HP|].
      * intros j o H. replace (S i + j)%nat with (i + S j)%nat by lia. apply NR. auto.
      * intros j l LE ND O [HX|[HU|(lk' & N' & HL)]].
        -- apply (DX j l ltac:(lia) ND O HX).
        -- eapply (apart E R v PT i j [] l); eauto. lia.
        -- eapply (apart_root E R v PT i j l lk'); eauto. lia.
      * cbn beta. intros u0 s HP. cbn [length]. eapply part_weak; [exact HP| |].
        -- intros l [[H|H]|(j & H1 & H2)]; [left; auto|right; exists i; split; [lia|auto]|].
           right. exists j. split; [lia|auto].
        -- intros l _ [H|(j & H1 & H2)]; [left; left; auto|].
           destruct (Nat.eq_dec j i) as [->|D]; [left; right; auto|right; exists j; split; [lia|auto]].
Qed.

(* ---- the whole ---- *)
Hypothesis BL : forall e, r_blobs R (ca_hash (v_boot v)) = Some e -> length e = 1024%nat.
Lemma h_stat_boot : forall X G,
  hoare (part X G) (stat_bootrec (v_boot v)) (fun _ => part X G).
Proof.
  intros X G. destruct (so_boot _ _ _ SO) as (b & (BR & (e & BE & BF) & _)).
  unfold stat_bootrec.
  eapply h_bind; [apply h_may_fail; [discriminate|apply part_nofate]|]. intros u0. cbn beta. clear u0.
  eapply h_bind; [apply h_get|]. intros r. cbn beta.
  apply h_pre. intros s (HP & ->). pose proof HP as (_ & PB & PR & _). rewrite PR, BR, PB, BE. cbn [negb].
  rewrite (BL _ BE). change (Z.of_nat 1024 =? BOOTREC_SIZE) with true.
  eapply h_bind with (Q := fun _ => part X G).
  - eapply h_conseq; [apply (h_may_fail EIo (part X G)); [discriminate|apply part_nofate]| |].
    + intros s0 ->. exact HP.
    + auto.
  - intros u0. cbn beta. apply h_ret. auto.
Qed.

Lemma h_load_boot : forall X G,
  hoare (part X G) (load_bootrec E (v_boot v)) (fun _ => part X G).
Proof.
  intros X G. destruct (so_boot _ _ _ SO) as (b & B0).
  pose proof (boot_caddr E R v _ B0) as BC. pose proof B0 as (BR & (e & BE & BF) & BLN & BCC & br & BD & BN).
  assert (LE : (1024 <= length e)%nat).
  { rewrite <- BF in BLN. rewrite firstn_length in BLN. lia. }
  unfold load_bootrec.
  eapply h_bind; [apply h_may_fail; [discriminate|apply part_nofate]|]. intros u0. cbn beta. clear u0.
  eapply h_bind; [apply h_get|]. intros r. cbn beta.
  apply h_pre. intros s (HP & ->). pose proof HP as (_ & PB & PR & _). rewrite PR, BR, PB, BE. cbn [negb].
  eapply h_bind with (Q := fun _ => part X G).
  - eapply h_conseq; [apply (h_may_fail EIo (part X G)); [discriminate|apply part_nofate]| |].
    + intros s0 ->. exact HP.
    + auto.
  - intros u0. cbn beta.
    replace (Z.of_nat (length e) <? BOOTREC_SIZE) with false by (symmetry; apply Z.ltb_ge; unfold BOOTREC_SIZE; lia).
    change (Z.to_nat BOOTREC_SIZE) with 1024%nat. rewrite BF, <- BC, caddr_eqb_refl. cbn [negb]. rewrite BD.
    apply h_ret. auto.
Qed.

Definition none : lsid -> Prop := fun _ => False.

Lemma h_reload : hoare (part none none) 
    (stat_bootrec (v_boot v) ;;; load_bootrec E (v_boot v) ;;; open_lseg (la_lsid (v_super v)) ;;;
     stage_bytes (mkLink (v_super v) []) ;;; ret tt) (fun _ => part none none).
Proof.
  destruct (so_live _ _ _ SO _ (lv_super _ _ _)) as (PR & b & RB).
  destruct (reads_seg _ _ _ PR RB) as (g & G0 & EN & _).
  assert (GS : forall s, part none none s -> r_segs (s_repo s) (la_lsid (v_super v)) = Some g).
  { intros s (_ & _ & _ & P4 & _). destruct (P4 (la_lsid (v_super v))) as [H|([] & _)]. congruence. }
  eapply h_bind; [apply h_stat_boot|]. intros u0. cbn beta. clear u0.
  eapply h_bind; [apply h_load_boot|]. intros u0. cbn beta. clear u0.
  eapply h_bind with (Q := fun _ => part none none).
  - intros s HP. specialize (GS s HP).
    pose proof (h_open (la_lsid (v_super v)) (here (s_repo s) (s_descs s)) g (nofate_here _ _)) as H.
    specialize (H (fun s0 K => eq_trans (f_equal (fun r => r_segs r _) (proj1 K)) GS) (so_sized _ _ _ SO _ _ G0) s (conj eq_refl eq_refl)).
    destruct (open_lseg (la_lsid (v_super v)) s) as [[x|e|] s']; auto.
    destruct H as ((H1 & H2 & H3) & H4). split; auto. unfold part in *. rewrite H2. auto.
  - intros u0. cbn beta. clear u0.
    eapply h_bind with (Q := fun _ => part none none).
    + intros s HP. specialize (GS s HP).
      pose proof (h_stage_bytes (s_repo s) (s_descs s) (mkLink (v_super v) []) g GS (so_sized _ _ _ SO _ _ G0) PR EN s (conj eq_refl eq_refl)) as H.
      destruct (stage_bytes (mkLink (v_super v) []) s) as [[x|e|] s']; auto.
      destruct H as ((H1 & H2 & H3) & H4). split; auto. unfold part in *. rewrite H2. auto.
    + intros u0. cbn beta. apply h_ret. auto.
Qed.

(* every path starts at a root *)
Lemma np_space : forall p h lk, np p h lk -> exists j, (j < length (v_roots v))%nat /\
  space j (la_lsid (lk_addr lk)) /\ forall l, block_seg E R v p l -> under [j] l.
Proof.
  intros p h lk N.
  assert (K : exists a j, p = a ++ [j] /\ (j < length (v_roots v))%nat).
  { clear - N. induction N as [i lk H|p h lk b sl i c N (a & j & -> & L) RB SL H].
    - exists [], i. split; auto. apply nth_error_Some. congruence.
    - exists (i :: a), j. split; auto. }
  destruct K as (a & j & -> & L). exists j. split; auto. split.
  - destruct a as [|i a].
    + right. cbn [app] in N. exists lk. split; auto.
      destruct (np_inv _ _ _ _ _ _ _ N) as [(_ & H)|(lk0 & b0 & sl0 & N0 & _)]; [destruct H as (-> & _); auto|].
      exfalso. eapply np_nonnil; eauto.
    + left. left. exists a, i, h, lk. split; [exact N|auto].
  - intros l B. right. exists a. exact B.
Qed.

Lemma space_seg : forall j l, space j l -> fs_seg E R v l.
Proof.
  intros j l [[(a & i & h & lk & N & H)|(a & B)]|(lk & N & H)].
  - right; left. eauto.
  - right; right. eauto.
  - right; left. eauto.
Qed.

Lemma h_walk_unref : hoare (part none none) (walk_unref E v) (fun _ => part (fs_seg E R v) (fs_seg E R v)).
Proof.
  unfold walk_unref. eapply h_bind.
  - apply (h_walk_spaces (v_roots v) 0 none none); [auto|]. intros j l _ _ _ [].
  - intros u0. cbn beta. clear u0.
    eapply h_conseq; [apply h_try_remove|intros s HP; exact HP|]. cbn beta. intros u0 s HP.
    eapply part_weak; [exact HP| |].
    + intros l [[[]|(j & _ & H)]|H]; [eapply space_seg; eauto|left; auto].
    + intros l _ [H|[(p & h & lk & N & H)|(p & B)]]; [right; auto| |]; left; right.
      * destruct (np_space _ _ _ N) as (j & L & S & _). exists j. split; [lia|]. subst l. auto.
      * pose proof B as (lk & b & sl & x & N & _). destruct (np_space _ _ _ N) as (j & L & _ & S).
        exists j. split; [lia|]. left. auto.
Qed.

(* the boot record too *)
Lemma h_unlink : hoare (part (fs_seg E R v) (fs_seg E R v)) (unlink_bootrec (v_boot v))
  (fun _ s => removed E v R (s_repo s)).
Proof.
  destruct (so_boot _ _ _ SO) as (b & (BR & (e & BE & BF) & _)).
  unfold unlink_bootrec. eapply h_bind; [apply h_stat_boot|]. intros u0. cbn beta. clear u0.
  eapply h_bind with (Q := fun _ s => exists s0, part (fs_seg E R v) (fs_seg E R v) s0 /\
      s_repo s = del_blob (s_repo s0) (ca_hash (v_boot v))).
  - unfold unlink_blob. eapply h_bind; [apply h_may_fail; [discriminate|apply part_nofate]|]. intros u0. cbn beta. clear u0.
    eapply h_bind; [apply h_get|]. intros r. cbn beta.
    apply h_pre. intros s (HP & ->). pose proof HP as (_ & PB & _). rewrite PB, BE.
    apply h_set. intros s0 ->. cbn [s_repo]. exists s. auto.
  - intros u0. cbn beta. clear u0. apply h_ex. intros s0. apply h_and. intros (PP & PB & PR & PX & PG).
    unfold remove_ref. eapply h_bind; [apply h_may_fail; [discriminate|]|].
    { intros r f d f' H. exact H. }
    intros u0. cbn beta. clear u0.
    eapply h_bind; [apply h_get|]. intros r. cbn beta.
    apply h_pre. intros s (HR & ->). rewrite HR. cbn [del_blob r_refs]. rewrite PR, BR.
    apply h_set. intros s1 _. cbn [s_repo]. clear s1. unfold removed, del_ref, del_blob. cbn [r_packs r_segs r_blobs r_refs].
    rewrite bytes_eqb_refl, caddr_eqb_refl. cbn [negb andb].
    split; [exact PP|]. split; [intros l F O; apply PG; auto|].
    split; [intros l; destruct (PX l) as [H|(H1 & H2 & _)]; auto|].
    split; [auto|split; [auto|split]].
    + intros h N. destruct (bytes_eqb h (ca_hash (v_boot v))) eqn:Q; [apply bytes_eqb_eq in Q; contradiction|]. rewrite PB. auto.
    + intros c N. destruct (caddr_eqb c (v_boot v)) eqn:Q; [apply caddr_eqb_eq in Q; contradiction|]. rewrite PR. auto.
Qed.

Lemma part_start : forall f d, part none none (mkSt R f d).
Proof.
  intros f d. split; [auto|split; [auto|split; [auto|split]]]; cbn [s_repo]; [left; auto|intros l _ []].
Qed.

Lemma fs_remove_spec : forall f d,
  match fs_remove E v false (mkSt R f d) with
  | (Ok _, s) => removed E v R (s_repo s)
  | (Err _, _) => faulty f
  | (Abort, _) => False
  end.
Proof.
  intros f d.
  assert (H : hoare (part none none) (fs_remove E v false) (fun _ s => removed E v R (s_repo s))).
  { unfold fs_remove. eapply h_bind; [exact h_reload|]. intros u0. cbn beta. clear u0.
    eapply h_bind; [exact h_walk_unref|]. intros u0. cbn beta. clear u0. exact h_unlink. }
  specialize (H _ (part_start f d)). destruct (fs_remove E v false (mkSt R f d)) as [[u0|e|] s]; tauto.
Qed.
End Complete.

(* nothing is written before the mark of a base is looked at *)
Definition is_R (R : repo) : repo -> list desc -> Prop := fun r _ => r = R.

Lemma sat_same_stage : forall R lk, r_segs R (la_lsid (lk_addr lk)) <> None ->
  sat (is_R R) (stage_bytes lk) (fun _ => True).
Proof.
  intros R lk NN. unfold stage_bytes, require_lseg.
  eapply sat_bind with (V := fun _ => True); [eapply sat_or_noent; [apply sat_stat| |]|].
  { eapply sat_bind; [apply sat_open|]. intros a _. apply sat_ret; auto. }
  { unfold spawn_lseg. eapply sat_bind; [apply sat_may_fail|]. intros _ _.
    apply sat_get. intros s HI. destruct (r_segs (s_repo s) (la_lsid (lk_addr lk))) as [g|] eqn:G; [split; cbn; auto|].
    unfold is_R in HI. congruence. }
  intros _ _. eapply sat_bind; [apply sat_open|]. intros _ _.
  unfold read_at. eapply sat_bind; [apply sat_open|]. intros g _.
  destruct (sg_size g <? la_end (lk_addr lk)); [apply sat_abort|].
  destruct (la_pos (lk_addr lk) <? 0); [apply sat_fail|].
  destruct (la_end (lk_addr lk) >? ls_lsize (la_lsid (lk_addr lk)) + LBK_SIZE); [apply sat_fail|].
  eapply sat_bind; [apply sat_may_fail|]. intros _ _. apply sat_ret; auto.
Qed.

Lemma fs_remove_base : forall E R v f d, sound E R v ->
  (forall e, r_blobs R (ca_hash (v_boot v)) = Some e -> length e = 1024%nat) ->
  match fs_remove E v true (mkSt R f d) with
  | (Err e, s) => (e = ERofs \/ faulty f) /\ s_repo s = R
  | _ => False
  end.
Proof.
  intros E R v f d SO BL.
  destruct (so_live _ _ _ SO _ (lv_super _ _ _)) as (PR & b & RB).
  destruct (reads_seg _ _ _ PR RB) as (g & G0 & EN & _).
  pose proof (h_reload E R v SO BL _ (part_start R v f d)) as H. cbv [none] in H.
  assert (S : sat (is_R R) (reload_fs E v true) (fun _ => True)).
  { unfold reload_fs. eapply sat_bind; [apply sat_stat_bootrec|]. intros _ _.
    eapply sat_bind; [apply sat_load_bootrec|]. intros _ _.
    eapply sat_bind; [apply sat_open|]. intros _ _.
    eapply sat_bind; [apply sat_same_stage; cbn; congruence|]. intros _ _. apply sat_fail. }
  specialize (S (mkSt R f d) eq_refl).
  unfold fs_remove, bind at 1. unfold reload_fs, bind in S, H |- *.
  repeat match goal with
  | |- context [match ?m ?s with pair _ _ => _ end] => destruct (m s) as [[?|?|] ?]; cbn in *; try tauto
  end.
Qed.
