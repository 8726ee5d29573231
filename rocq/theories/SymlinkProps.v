(* C06: readlink returns the symlink target. *)
From Verif Require Import Base SymlinkModel SymlinkProofs.

(* ---------- specification ---------- *)

(* What the space allocator may answer in a given world: only unused addresses, and
   different ones for different requests of one operation. *)
Definition grants (orc : list (option Z)) (a : Z) : Prop := In (Some a) orc.
Definition is_some (o : option Z) : bool := match o with Some _ => true | None => false end.
Definition sound_allocator (w : world) (o : op) : Prop :=
  match o with
  | Symlink _ _ orc _ =>
    (forall a, grants orc a -> allocated w a = false) /\ NoDup (filter is_some orc)
  | Unlink _ => True
  end.

Fixpoint run (w : world) (os : list op) : world :=
  match os with [] => w | o :: r => run (fst (step w o)) r end.

(* a history in which the allocator answers soundly at every step *)
Fixpoint sound (w : world) (os : list op) : Prop :=
  match os with [] => True | o :: r => sound_allocator w o /\ sound (fst (step w o)) r end.

(* the file system survives: this symlink is not removed by the history *)
Definition keeps (ino : Z) (os : list op) : Prop := ~ In (Unlink ino) os.

(* ---------- the invariant along histories ---------- *)

Definition gstep (w : world) (g : Z -> option bytes) (o : op) : Z -> option bytes :=
  if snd (step w o) then
    match o with
    | Symlink ino t orc _ =>
      fset g ino (Some (if (zlen t <=? HEAD_MAX) || is_some (nth 0 orc None) then t else []))
    | Unlink ino => fset g ino None
    end
  else g.

Lemma step_inv : forall w g o, Inv w g -> sound_allocator w o -> Inv (fst (step w o)) (gstep w g o).
Proof.
  intros w g o (owns & I1 & I2 & I3) Hs. destruct o as [ino t orc add_ok|ino]; unfold gstep; cbn [step].
  - destruct ((zlen t =? 0) || (SYMLNK_MAX <? zlen t)) eqn:E; [exists owns; auto|].
    pose proof (zlen_nonneg _ t) as Hz.
    destruct (w_links w ino) as [l0|] eqn:El; [exists owns; auto|].
    destruct Hs as [Hfree Hnd].
    destruct (bind_symval_spec (w_store w) t orc ltac:(lia) Hnd)
      as (addrs & st' & l & Ea & Eb & Wf & Agree & Cases).
    assert (Hfresh : forall a, In a addrs -> w_store w a = None).
    { intros a Hin. assert (G : grants orc a).
      { unfold grants. rewrite <- (firstn_skipn (length addrs) orc). apply in_or_app. left.
        rewrite Ea. apply in_map. auto. }
      specialize (Hfree a G). unfold allocated in Hfree. destruct (w_store w a); [discriminate|auto]. }
    assert (Old : forall i li, w_links w i = Some li -> forall a, In a (owns i) -> ~ In a addrs).
    { intros i li Hi a Ha Hin. destruct (I2 i li Hi) as [[_ Hn] _]. apply (Hn a Ha). auto. }
    rewrite Eb. destruct add_ok; cbn [fst snd].
    + set (t' := if (zlen t <=? HEAD_MAX) || is_some (nth 0 orc None) then t else []).
      assert (R : rep st' l t').
      { unfold t'. destruct Cases as [(A & B & C)|[(A & B & C)|(A & B & C & D)]].
        - replace (zlen t <=? HEAD_MAX) with true by lia. auto.
        - replace (zlen t <=? HEAD_MAX) with false by lia. cbn [orb].
          destruct addrs as [|a [|b r]]; cbn [length] in B; try lia.
          destruct orc as [|o orc]; [discriminate|]. cbn [length firstn map] in Ea. inversion Ea; subst.
          cbn [nth is_some]. auto.
        - replace (zlen t <=? HEAD_MAX) with false by lia. cbn [orb]. rewrite C. auto. }
      exists (fset owns ino addrs). cbn [w_links w_store].
      split; [|split].
      * intros i Hi. unfold fset in *. destruct (i =? ino) eqn:Ei; [discriminate|auto].
      * intros i li Hi. unfold fset in *. destruct (i =? ino) eqn:Ei.
        -- inversion Hi; subst. split; auto. exists t'. auto.
        -- destruct (I2 i li Hi) as [W (ti & Gi & Ri)].
           destruct (rep_agree _ st' _ ti _ W) as [W' R']; eauto.
      * intros i j li lj a Hi Hj. unfold fset in *.
        destruct (i =? ino) eqn:Ei; destruct (j =? ino) eqn:Ej; intros Ha Hb.
        -- lia.
        -- exfalso. eapply (Old j); eauto.
        -- exfalso. eapply (Old i); eauto.
        -- eapply I3; eauto.
    + exists owns. cbn [w_links w_store]. split; [auto|]. split; [|auto].
      intros i li Hi. destruct (I2 i li Hi) as [W (ti & Gi & Ri)].
      destruct (rep_agree _ st' _ ti _ W) as [W' R']; eauto.
  - destruct (w_links w ino) as [l|] eqn:El; [|exists owns; auto].
    cbn [fst snd]. exists owns. cbn [w_links w_store].
    destruct (I2 ino l El) as [W0 _]. destruct W0 as [[k Hk] _].
    assert (Agree : forall i li, w_links w i = Some li -> i <> ino -> forall a, In a (owns i) ->
       drop_parts (w_store w) (l_tail l) a = w_store w a).
    { intros i li Hi Hne a Ha. rewrite Hk, drop_parts_spec.
      destruct (existsb (Z.eqb a) (owns ino)) eqn:Ex; auto. exfalso. apply Hne.
      apply existsb_exists in Ex. destruct Ex as (b & Hb & Eb). apply Z.eqb_eq in Eb. subst b.
      eapply I3; eauto. }
    split; [|split].
    + intros i Hi. unfold fset in *. destruct (i =? ino) eqn:Ei; auto.
    + intros i li Hi. unfold fset in *. destruct (i =? ino) eqn:Ei; [discriminate|].
      destruct (I2 i li Hi) as [W (ti & Gi & Ri)].
      destruct (rep_agree _ (drop_parts (w_store w) (l_tail l)) _ ti _ W) as [W' R']; eauto.
      intros a Ha. apply (Agree i li); auto. lia.
    + intros i j li lj a Hi Hj. unfold fset in *.
      destruct (i =? ino); [discriminate|]. destruct (j =? ino); [discriminate|]. eauto.
Qed.

Fixpoint grun (w : world) (g : Z -> option bytes) (os : list op) : Z -> option bytes :=
  match os with [] => g | o :: r => grun (fst (step w o)) (gstep w g o) r end.

Lemma run_inv : forall os w g, Inv w g -> sound w os -> Inv (run w os) (grun w g os).
Proof.
  induction os as [|o os IH]; intros w g I S; cbn [run grun sound] in *; auto.
  destruct S as [S1 S2]. apply IH; auto. apply step_inv; auto.
Qed.

Lemma Inv0 : Inv world0 (fun _ => None).
Proof. exists (fun _ => []). cbn. repeat split; try discriminate; auto. Qed.

Lemma grun_keeps : forall os w g ino t, keeps ino os -> g ino = Some t -> w_links w ino <> None ->
  grun w g os ino = Some t.
Proof.
  induction os as [|o os IH]; intros w g ino t K G L; cbn [grun]; auto.
  assert (K' : keeps ino os) by (intros Hin; apply K; right; auto).
  assert (P : gstep w g o ino = Some t /\ w_links (fst (step w o)) ino <> None).
  { unfold gstep. destruct o as [i tt orc ok|i].
    - cbn [step]. destruct (_ || _); [auto|].
      destruct (w_links w i) eqn:E; [auto|].
      assert (i <> ino) by congruence.
      destruct (bind_symval (w_store w) lnk_setup tt orc). destruct ok; cbn [fst snd w_links]; auto.
      rewrite !fset_other by congruence. auto.
    - assert (i <> ino) by (intros ->; apply K; left; auto).
      cbn [step]. destruct (w_links w i) eqn:E; cbn [fst snd w_links]; auto.
      rewrite !fset_other by congruence. auto. }
  destruct P. apply IH; auto.
Qed.

Lemma run_app : forall a w b, run w (a ++ b) = run (run w a) b.
Proof. induction a; intros; cbn [run app]; auto. Qed.
Lemma sound_app : forall a w b, sound w (a ++ b) <-> sound w a /\ sound (run w a) b.
Proof. induction a; intros; cbn [sound run app]; [tauto|]. rewrite IHa. tauto. Qed.

(* what the symlink reads as for ever after *)
Lemma symlink_outcome : forall before ino t orc after lim w1,
  sound world0 (before ++ Symlink ino t orc true :: after) ->
  w1 = run world0 before -> snd (step w1 (Symlink ino t orc true)) = true ->
  keeps ino after -> 0 <= lim ->
  do_readlink (run world0 (before ++ Symlink ino t orc true :: after)) ino lim =
  RlOk (ztake lim (if (zlen t <=? HEAD_MAX) || is_some (nth 0 orc None) then t else [])).
Proof.
  intros before ino t orc after lim w1 S E R K Hlim.
  rewrite run_app. rewrite <- E. cbn [run].
  apply sound_app in S. rewrite <- E in S. destruct S as [S1 [S2 S3]].
  pose proof (run_inv before world0 _ Inv0 S1) as I. rewrite <- E in I.
  set (g := grun world0 (fun _ => None) before) in *.
  set (o := Symlink ino t orc true) in *.
  pose proof (step_inv _ _ _ I S2) as I1.
  pose proof (run_inv after _ _ I1 S3) as I2.
  set (t' := if (zlen t <=? HEAD_MAX) || is_some (nth 0 orc None) then t else []).
  assert (G1 : gstep w1 g o ino = Some t').
  { unfold gstep. rewrite R. unfold o. apply fset_same. }
  assert (L1 : w_links (fst (step w1 o)) ino <> None).
  { unfold o in *. cbn [step] in *. destruct (_ || _); [discriminate|].
    destruct (w_links w1 ino); [discriminate|].
    destruct (bind_symval _ _ _ _). cbn [fst w_links]. rewrite fset_same. discriminate. }
  pose proof (grun_keeps after _ _ ino t' K G1 L1) as G2.
  destruct I2 as (owns & J1 & J2 & J3). unfold do_readlink.
  destruct (w_links (run (fst (step w1 o)) after) ino) as [l|] eqn:El.
  - destruct (J2 ino l El) as [_ (t2 & Gt & Rt)]. rewrite G2 in Gt. inversion Gt; subst t2.
    apply readlink_rep; auto.
  - apply J1 in El. congruence.
Qed.

(* ---------- C06 ---------- *)

(* Any history, then a successful symlink(target) during which no allocation failed, then
   any further operations except removing it: readlink returns exactly the target, cut
   to the caller's buffer. *)
Theorem C06_readlink_partial : forall before ino target orc after lim,
  sound world0 (before ++ Symlink ino target orc true :: after) ->
  snd (step (run world0 before) (Symlink ino target orc true)) = true ->
  ~ In None orc -> orc <> [] ->
  keeps ino after -> 0 <= lim ->
  do_readlink (run world0 (before ++ Symlink ino target orc true :: after)) ino lim =
  RlOk (ztake lim target).
Proof.
  intros before ino t orc after lim S R N E K Hlim.
  rewrite (symlink_outcome before ino t orc after lim _ S eq_refl R K Hlim).
  destruct orc as [|[a|] r]; [congruence| |destruct N; left; auto].
  cbn [nth is_some]. rewrite orb_true_r. reflexivity.
Qed.
Example C06_readlink_ex :
  let t := zrepeat 97 1000 in let o := Symlink 7 t [Some 55; Some 66] true in
  let before := [Symlink 5 (zrepeat 98 700) [Some 11; Some 12] true] in
  sound world0 (before ++ o :: [Unlink 5]) /\ snd (step (run world0 before) o) = true /\
  keeps 7 [Unlink 5] /\
  do_readlink (run world0 (before ++ o :: [Unlink 5])) 7 600 = RlOk (zrepeat 97 600).
Proof.
  cbv zeta. split; [|split; [vm_compute; reflexivity|split; [|vm_compute; reflexivity]]].
  - cbn [app sound sound_allocator].
    split; [split|split; [split|split; exact I]].
    + intros a _. reflexivity.
    + cbn. repeat constructor; cbn; intuition congruence.
    + intros a [H|[H|[]]]; inversion H; subst; vm_compute; reflexivity.
    + cbn. repeat constructor; cbn; intuition congruence.
  - intros [H|[]]. discriminate.
Qed.
Print Assumptions C06_readlink_partial.

(* A target that fits in the inode needs no allocation at all. *)
Theorem C06_short_targets : forall before ino target orc after lim,
  sound world0 (before ++ Symlink ino target orc true :: after) ->
  0 < zlen target <= 480 ->
  w_links (run world0 before) ino = None ->
  keeps ino after -> 0 <= lim ->
  snd (step (run world0 before) (Symlink ino target orc true)) = true /\
  do_readlink (run world0 (before ++ Symlink ino target orc true :: after)) ino lim =
  RlOk (ztake lim target).
Proof.
  intros before ino t orc after lim S L N K Hlim.
  assert (R : snd (step (run world0 before) (Symlink ino t orc true)) = true).
  { cbn [step]. replace ((zlen t =? 0) || (SYMLNK_MAX <? zlen t)) with false by (unfold SYMLNK_MAX; lia).
    rewrite N. destruct (bind_symval _ _ _ _). reflexivity. }
  split; [exact R|].
  rewrite (symlink_outcome before ino t orc after lim _ S eq_refl R K Hlim).
  replace (zlen t <=? HEAD_MAX) with true by (unfold HEAD_MAX; lia). reflexivity.
Qed.
Example C06_short_targets_ex :
  sound world0 ([] ++ Symlink 7 [1; 2; 3] [] true :: [Symlink 8 [4] [] false]) /\
  w_links (run world0 []) 7 = None.
Proof. cbn. repeat split; try constructor; intros a []. Qed.
Print Assumptions C06_short_targets.

(* Empty and over-long targets are refused. *)
Theorem C06_bad_targets : forall w ino target orc ok,
  zlen target = 0 \/ 4096 < zlen target -> step w (Symlink ino target orc ok) = (w, false).
Proof.
  intros w ino t orc ok H. cbn [step].
  replace ((zlen t =? 0) || (SYMLNK_MAX <? zlen t)) with true by (unfold SYMLNK_MAX; lia). reflexivity.
Qed.
Example C06_bad_targets_ex : step world0 (Symlink 3 [] [] true) = (world0, false).
Proof. reflexivity. Qed.
Print Assumptions C06_bad_targets.

(* Finding: "if the target could not be stored, symlink reports an error" is false.
   When the allocation of the value node fails, symlink returns success and the link
   reads as the empty string (symlink.c:488-502 returns 0 on every error). *)
Theorem C06_error_reported_refuted :
  exists ino target orc, sound world0 [Symlink ino target orc true] /\
    snd (step world0 (Symlink ino target orc true)) = true /\
    do_readlink (run world0 [Symlink ino target orc true]) ino 4096 = RlOk [] /\ target <> [].
Proof.
  exists 7, (zrepeat 97 481), [None]. split.
  - cbn. repeat split; try constructor.
  - split; [vm_compute; reflexivity|]. split; [vm_compute; reflexivity|]. vm_compute. discriminate.
Qed.
Print Assumptions C06_error_reported_refuted.

(* Finding: a symlink call that fails while adding the name leaves its value node
   allocated although no link refers to it. *)
Theorem C06_failed_symlink_leaks_refuted :
  exists ino target orc a, sound world0 [Symlink ino target orc false] /\
    snd (step world0 (Symlink ino target orc false)) = false /\
    allocated (run world0 [Symlink ino target orc false]) a = true /\
    (forall i, w_links (run world0 [Symlink ino target orc false]) i = None).
Proof.
  exists 7, (zrepeat 97 481), [Some 9], 9. split.
  - cbn. repeat split; try (repeat constructor; cbn; tauto). 
  - split; [vm_compute; reflexivity|]. split; [vm_compute; reflexivity|]. reflexivity.
Qed.
Print Assumptions C06_failed_symlink_leaks_refuted.
