(* Rename: what it does to names, link counts and reachability. *)
From Verif Require Import Base NameModel NameSpec NameProofs NameOps.

(* what must hold of a target that is replaced *)
Definition replaceable (s : ns) (k' : Z) : Prop := forall i, get s k' = Some i -> i_ents i = [].

Definition ren_ok (d : Z) (n : name) (d' : Z) (n' : name) (f : rflags) (s s' : ns) : Prop :=
  exists k, entry s d n = Some k /\
  match entry s d' n' with
  | None => exists s1, (isdir s d' = true /\ (d' = INO_ROOT \/ 0 < names s d')) /\
                       removed d n k s s1 /\ added d' n' k s1 s'
  | Some k' =>
    if k =? k' then exists s1, removed d n k s s1 /\ swept k s1 s'
    else if rf_exchange f
    then exists s1 s2 s3, removed d n k s s1 /\ removed d' n' k' s1 s2 /\ added d' n' k s2 s3 /\ added d n k' s3 s'
    else replaceable s k' /\
         exists s1 s2 s3, removed d' n' k' s s1 /\ swept k' s1 s2 /\ removed d n k s2 s3 /\ added d' n' k s3 s'
  end.
Definition ren_er (d : Z) (n : name) (d' : Z) (n' : name) (f : rflags) (s s' : ns) : Prop :=
  exists k, entry s d n = Some k /\
  match entry s d' n' with
  | None => removed d n k s s'
  | Some k' =>
    if k =? k' then exists s1, removed d n k s s1 /\ pruned k s1 s'
    else if rf_exchange f
    then exists s1, removed d n k s s1 /\ (s' = s1 \/ exists s2, removed d' n' k' s1 s2 /\ (s' = s2 \/ added d' n' k s2 s'))
    else replaceable s k' /\
         exists s1, removed d' n' k' s s1 /\ (s' = s1 \/ exists s2, pruned k' s1 s2 /\ (s' = s2 \/ removed d n k s2 s'))
  end.

Definition pairb (e : Z) (m : name) (d : Z) (n : name) : bool := (e =? d) && bytes_eqb n m.
Lemma pairb_true : forall e m d n, pairb e m d n = true <-> e = d /\ m = n.
Proof.
  intros. unfold pairb. rewrite andb_true_iff, Z.eqb_eq. split; intros [H1 H2]; split; auto.
  - symmetry. apply bytes_eqb_eq. exact H2.
  - subst. apply bytes_eqb_refl.
Qed.
Lemma pairb_refl : forall e m, pairb e m e m = true.
Proof. intros. apply pairb_true. auto. Qed.

Lemma dir_of_entry : forall x s d n k, inv x s -> entry s d n = Some k -> isdir s d = true /\ exists i, get s k = Some i.
Proof.
  intros x s d n k I E. unfold entry, isdir in *. destruct (get s d) as [di|] eqn:G; [|discriminate]. split.
  - destruct (i_dir di) eqn:D; [reflexivity|]. rewrite (inv_file _ _ I _ _ G D) in E. discriminate.
  - eapply (inv_there _ _ I); [exact G|]. apply ent_of_in. exact E.
Qed.
Lemma names_of_entry : forall s d n k, entry s d n = Some k -> 1 <= names s k.
Proof.
  intros s d n k E. unfold entry in E. destruct (get s d) as [di|] eqn:G; [|discriminate].
  pose proof (names_ge s d di k G). pose proof (cnt_in _ _ _ (ent_of_in _ _ _ E)). lia.
Qed.
Lemma alive_of_entry : forall x s d n k, inv x s -> entry s d n = Some k -> d = INO_ROOT \/ 0 < names s d \/ In d x.
Proof.
  intros x s d n k I E. destruct (Z.eq_dec d INO_ROOT) as [|Nr]; [auto|]. right.
  pose proof (names_nonneg s d). destruct (Z.eq_dec (names s d) 0) as [N0|]; [|left; lia].
  unfold entry in E. destruct (get s d) as [di|] eqn:G; [|discriminate].
  destruct (in_dec Z.eq_dec d x) as [Hx|Hx]; [auto|]. exfalso.
  rewrite (inv_dead _ _ I d di G Nr N0 Hx) in E. discriminate.
Qed.

Lemma wp_remove_entry : forall x d n k s, inv x s -> entry s d n = Some k ->
  wp (remove_dentry d n) (fun _ s' => removed d n k s s') (fun e s' => e = EFAIL /\ (s' = s \/ removed d n k s s')) s.
Proof.
  intros x d n k s I En. destruct (dir_of_entry _ _ _ _ _ I En) as [Dd [i Gk]].
  eapply wp_conseq; [apply wp_remove_dentry|..]; cbv beta.
  - intros [] s' [k' [E R]]. assert (k' = k) by congruence. subst. exact R.
  - intros e s' [[-> [->|H]]|[-> [k' [E R]]]].
    + auto.
    + exfalso. apply H. eauto.
    + assert (k' = k) by congruence. subst. auto.
Qed.
Lemma present_removed : forall d n k s s' j, removed d n k s s' -> (exists i, get s j = Some i) -> exists i, get s' j = Some i.
Proof. intros d n k s s' j R [i G]. pose proof (get_removed _ _ _ _ _ j R) as X. rewrite G in X. destruct X as [i' [G' _]]. eauto. Qed.
Lemma present_added : forall d n k s s' j, added d n k s s' -> (exists i, get s j = Some i) -> exists i, get s' j = Some i.
Proof. intros d n k s s' j R [i G]. pose proof (get_added _ _ _ _ _ j R) as X. rewrite G in X. destruct X as [i' [G' _]]. eauto. Qed.
Lemma wp_add_entry : forall d n k s, (exists i, get s d = Some i) -> (exists i, get s k = Some i) ->
  wp (do_add_dentry d n k false) (fun _ s' => added d n k s s') (fun e s' => e = EFAIL /\ s' = s) s.
Proof. intros d n k s [di Gd] [ci Gk]. eapply wp_do_add_dentry_f; eauto. Qed.
Lemma present_dir : forall s d, isdir s d = true -> exists i, get s d = Some i.
Proof. intros s d H. unfold isdir in H. destruct (get s d); [eauto|discriminate]. Qed.

Lemma wp_stage_rename_at : forall d n b s, inv [] s -> wp (stage_rename_at d n b)
  (fun r s' => s' = s /\ isdir s d = true /\ match r with Some (k, i) => entry s d n = Some k /\ get s k = Some i
                                   | None => b = true /\ entry s d n = None end) (stays s) s.
Proof.
  intros d n b s I. unfold stage_rename_at. eapply wp_bind; [apply wp_check_dir_waccess|]. intros [] s' [-> Dd].
  intros o. pose proof (wp_stage_by_name d n s o) as H.
  assert (X : forall o' s', stage_by_name d n o s = Er ENOENT o' s' -> entry s d n = None).
  { intros o' s' E. destruct (entry s d n) as [k|] eqn:En; [|reflexivity]. exfalso.
    destruct (dir_of_entry _ _ _ _ _ I En) as [_ [i Gk]].
    unfold stage_by_name, lookup_by_name, stage, may_fail, bind, draw, state, require, ret, fail in E.
    unfold isdir in Dd. unfold entry in En. destruct (get s d) as [di|] eqn:Gd; [|discriminate].
    repeat (match type of E with context[match ?l with [] => Ok false _ _ | _ => _ end] => destruct l as [|[] ?] end;
            rewrite ?Gd, ?Dd, ?En in E; cbv beta iota in E; rewrite ?Gk in E); congruence. }
  destruct (stage_by_name d n o s) as [[k i] o' s'|e o' s'|].
  - cbn [fst snd] in H. destruct H as [-> [En [_ Gk]]].
    unfold may_fail, bind, draw, ret, fail. destruct o' as [|[] o']; auto.
  - subst s'. destruct e; auto. destruct b; auto. split; [reflexivity|]. split; [exact Dd|]. split; [reflexivity|]. eapply X; eauto.
  - exact Logic.I.
Qed.

Lemma wp_rename : forall d n d' n' f s, inv [] s ->
  wp (rename d n d' n' f) (fun _ s' => ren_ok d n d' n' f s s')
     (fun e s' => s' = s \/ (e = EFAIL /\ ren_er d n d' n' f s s')) s.
Proof.
  intros d n d' n' f s I. unfold rename.
  eapply wp_bind.
  { eapply wp_conseq; [apply wp_stage_rename_at; exact I|..]; cbv beta; [intros a s' H; exact H|auto]. }
  intros cur s' [-> [Dd Hc]].
  eapply wp_bind.
  { eapply wp_conseq; [apply wp_stage_rename_at; exact I|..]; cbv beta; [intros a s' H; exact H|auto]. }
  intros old s' [-> [Dd' Ho]].
  destruct cur as [[k i]|]; [|apply wp_fail; auto]. destruct Hc as [En Gk].
  assert (ND : forall d di, get s d = Some di -> NoDup (map fst (i_ents di))) by (apply (inv_ndup _ _ I)).
  (* the checks *)
  apply wp_bind with (P := fun _ s' => s' = s /\ match old with
     | Some (k', i') => k <> k' -> rf_exchange f = false -> replaceable s k'
     | None => True end).
  { unfold check_rename.
    apply wp_bind with (P := fun _ s' => s' = s); [apply wp_require; auto|]. intros [] s' ->.
    destruct old as [[k' i']|]; [|apply wp_require; auto]. destruct Ho as [En' Gk'].
    apply wp_bind with (P := fun _ s' => s' = s); [apply wp_require; auto|]. intros [] s' ->.
    destruct (rf_exchange f).
    - unfold check_rename_exchange. apply wp_bind with (P := fun _ s' => s' = s); [apply wp_may_fail; auto|]. intros [] s' ->.
      assert (D : forall (x : Z), wp (i0 <- stage x; check_nomlink i0)
         (fun _ s' => s' = s /\ (k <> k' -> true = false -> replaceable s k'))
         (fun e s' => s' = s \/ (e = EFAIL /\ ren_er d n d' n' f s s')) s).
      { intros x. eapply wp_bind; [eapply wp_conseq; [apply wp_stage|intros a s' H; exact H|auto]|]. intros a s' [-> _].
        unfold check_nomlink. apply wp_require; [|auto]. intros _. split; [reflexivity|]. discriminate. }
      destruct (_ && _); [destruct (i_dir i'); apply D|]. apply wp_ret. split; [reflexivity|discriminate].
    - destruct (i_dir i' && negb (k' =? k)) eqn:C.
      + eapply wp_conseq; [apply wp_check_rmdir_child|..]; cbv beta; [|auto]. intros [] s' [-> [_ [He _]]].
        split; [reflexivity|]. intros _ _ a Ga. assert (a = i') by congruence. subst. exact He.
      + apply wp_ret. split; [reflexivity|]. intros Nk _ a Ga. assert (a = i') by congruence. subst a.
        apply andb_false_iff in C. destruct C as [C|C]; [exact (inv_file _ _ I _ _ Gk' C)|].
        apply negb_false_iff, Z.eqb_eq in C. congruence. }
  intros [] s' [-> Hr]. unfold rename_specific.
  assert (Er0 : forall e s', e = EFAIL /\ ren_er d n d' n' f s s' -> s' = s \/ (e = EFAIL /\ ren_er d n d' n' f s s')) by auto.
  destruct old as [[k' i']|].
  - destruct Ho as [En' Gk']. destruct (k =? k') eqn:K.
    { (* the same inode *)
      eapply wp_bind; [eapply wp_conseq; [apply (wp_remove_entry _ _ _ _ _ I En)|intros a s' H; exact H|]|].
      { cbv beta. intros e s' [-> [->|R]]; [auto|]. right. split; [reflexivity|]. exists k. split; [exact En|].
        rewrite En', K. exists s'. split; [exact R|left; reflexivity]. }
      intros [] s1 R. cbv beta in R. eapply wp_conseq; [apply wp_try_prune|..]; cbv beta.
      - intros [] s' W. exists k. split; [exact En|]. rewrite En', K. eauto.
      - intros e s' [-> P]. right. split; [reflexivity|]. exists k. split; [exact En|]. rewrite En', K. eauto. }
    assert (Nk : k <> k') by (apply Z.eqb_neq; exact K).
    assert (Np : pairb d n d' n' = false).
    { destruct (pairb d n d' n') eqn:E; [|reflexivity]. apply pairb_true in E. destruct E; subst. congruence. }
    assert (Np2 : pairb d' n' d n = false).
    { destruct (pairb d' n' d n) eqn:E; [|reflexivity]. apply pairb_true in E. destruct E; subst. congruence. }
    destruct (rf_exchange f) eqn:Fx.
    { (* exchange *)
      unfold rename_exchange.
      eapply wp_bind; [eapply wp_conseq; [apply (wp_remove_entry _ _ _ _ _ I En)|intros a s' H; exact H|]|].
      { cbv beta. intros e s' [-> [->|R]]; [auto|]. right. split; [reflexivity|]. exists k. split; [exact En|].
        rewrite En', K, Fx. exists s'. auto. }
      intros [] s1 R1. cbv beta in R1. pose proof (inv_removed _ _ _ _ _ _ I R1) as I1.
      assert (En1 : entry s1 d' n' = Some k').
      { rewrite (entry_removed _ _ _ _ _ _ _ ND R1). unfold pairb in Np2. rewrite Np2. exact En'. }
      eapply wp_bind; [eapply wp_conseq; [apply (wp_remove_entry _ _ _ _ _ I1 En1)|intros a s' H; exact H|]|].
      { cbv beta. intros e s' [-> H]. right. split; [reflexivity|]. exists k. split; [exact En|].
        rewrite En', K, Fx. exists s1. split; [exact R1|]. destruct H as [->|R]; eauto. }
      intros [] s2 R2. cbv beta in R2.
      assert (Pr : forall j, (exists a, get s j = Some a) -> exists a, get s2 j = Some a).
      { intros j H. eapply present_removed; [exact R2|]. eapply present_removed; [exact R1|]. exact H. }
      eapply wp_bind; [eapply wp_conseq; [apply wp_add_entry with (d := d') (n := n') (k := k)|intros a s' H; exact H|]|].
      { apply Pr. apply present_dir. exact Dd'. }
      { apply Pr. eauto. }
      { cbv beta. intros e s' [-> ->]. right. split; [reflexivity|]. exists k. split; [exact En|].
        rewrite En', K, Fx. exists s1. split; [exact R1|]. right. exists s2. auto. }
      intros [] s3 A3. cbv beta in A3.
      eapply wp_conseq; [apply wp_add_entry|..]; cbv beta.
      { eapply present_added; [exact A3|]. apply Pr. apply present_dir. exact Dd. }
      { eapply present_added; [exact A3|]. apply Pr. eauto. }
      - intros [] s' A4. exists k. split; [exact En|]. rewrite En', K, Fx. exists s1, s2, s3. auto.
      - intros e s' [-> ->]. right. split; [reflexivity|]. exists k. split; [exact En|]. rewrite En', K, Fx.
        exists s1. split; [exact R1|]. right. exists s2. auto. }
    (* replace *)
    specialize (Hr Nk eq_refl). unfold rename_replace.
    eapply wp_bind; [eapply wp_conseq; [apply (wp_remove_entry _ _ _ _ _ I En')|intros a s' H; exact H|]|].
    { cbv beta. intros e s' [-> [->|R]]; [auto|]. right. split; [reflexivity|]. exists k. split; [exact En|].
      rewrite En', K, Fx. split; [exact Hr|]. exists s'. auto. }
    intros [] s1 R1. cbv beta in R1.
    assert (Nd' : d' <> k') by (intros ->; unfold entry in En'; rewrite Gk', (Hr _ Gk') in En'; discriminate).
    assert (Nd : d <> k') by (intros ->; unfold entry in En; rewrite Gk', (Hr _ Gk') in En; discriminate).
    assert (He1 : forall a, get s1 k' = Some a -> i_ents a = []).
    { intros a Ga. pose proof (get_removed _ _ _ _ _ k' R1) as X. rewrite Gk' in X. destruct X as [i1 [G1 [_ X]]].
      assert (i1 = a) by congruence. subst. rewrite X by congruence. exact (Hr _ Gk'). }
    assert (I1 : inv [] s1).
    { apply inv_settle with (k := k'); [eapply inv_removed; eauto|]. intros a Ga. right. auto. }
    eapply wp_bind; [eapply wp_conseq; [apply wp_try_prune|intros a s' H; exact H|]|].
    { cbv beta. intros e s' [-> P]. right. split; [reflexivity|]. exists k. split; [exact En|].
      rewrite En', K, Fx. split; [exact Hr|]. exists s1. split; [exact R1|]. right. exists s'. auto. }
    intros [] s2 W2. cbv beta in W2. pose proof (inv_pruned _ _ _ I1 (proj1 W2)) as I2.
    assert (En2 : entry s2 d n = Some k).
    { rewrite (entry_pruned _ _ _ _ _ (proj1 W2) He1), (entry_removed _ _ _ _ _ _ _ ND R1). unfold pairb in Np. rewrite Np. exact En. }
    eapply wp_bind; [eapply wp_conseq; [apply (wp_remove_entry _ _ _ _ _ I2 En2)|intros a s' H; exact H|]|].
    { cbv beta. intros e s' [-> H]. right. split; [reflexivity|]. exists k. split; [exact En|].
      rewrite En', K, Fx. split; [exact Hr|]. exists s1. split; [exact R1|]. right. exists s2. split; [exact (proj1 W2)|]. tauto. }
    intros [] s3 R3. cbv beta in R3.
    assert (Pr : forall j, j <> k' -> (exists a, get s j = Some a) -> exists a, get s3 j = Some a).
    { intros j Nj H. eapply present_removed; [exact R3|]. rewrite (get_pruned _ _ _ _ (proj1 W2) Nj).
      eapply present_removed; [exact R1|]. exact H. }
    eapply wp_conseq; [apply wp_add_entry|..]; cbv beta.
    { apply Pr; [exact Nd'|]. apply present_dir. exact Dd'. }
    { apply Pr; [exact Nk|]. eauto. }
    + intros [] s' A. exists k. split; [exact En|]. rewrite En', K, Fx. split; [exact Hr|]. exists s1, s2, s3. auto.
    + intros e s' [-> ->]. right. split; [reflexivity|]. exists k. split; [exact En|].
      rewrite En', K, Fx. split; [exact Hr|]. exists s1. split; [exact R1|]. right. exists s2. split; [exact (proj1 W2)|]. auto.
  - (* move *)
    destruct Ho as [_ En']. unfold rename_move.
    eapply wp_bind; [eapply wp_conseq; [apply wp_check_add_dentry|intros a s' H; exact H|auto]|].
    intros [] s' [-> [di' [Gd' [Di' Ld']]]].
    eapply wp_bind; [eapply wp_conseq; [apply (wp_remove_entry _ _ _ _ _ I En)|intros a s' H; exact H|]|].
    { cbv beta. intros e s' [-> [->|R]]; [auto|]. right. split; [reflexivity|]. exists k. split; [exact En|].
      rewrite En'. exact R. }
    intros [] s1 R1. cbv beta in R1.
    eapply wp_conseq; [apply wp_add_entry|..]; cbv beta.
    { eapply present_removed; [exact R1|]. eauto. }
    { eapply present_removed; [exact R1|]. eauto. }
    + intros [] s' A. exists k. split; [exact En|]. rewrite En'. exists s1. split; [|auto]. split; [exact Dd'|].
      destruct (alive_of_nlink _ _ _ I Gd' Di' Ld') as [H|[H|[]]]; auto.
    + intros e s' [-> ->]. right. split; [reflexivity|]. exists k. split; [exact En|]. rewrite En'. exact R1.
Qed.

(* --- names after --- *)
Definition moved_entry (s : ns) (d : Z) (n : name) (d' : Z) (n' : name) (k : Z) (back : option Z) (e : Z) (m : name) : option Z :=
  if pairb e m d' n' then Some k else if pairb e m d n then back else entry s e m.
Lemma ren_entries : forall d n d' n' f s s' k, inv [] s -> ren_ok d n d' n' f s s' -> entry s d n = Some k ->
  entry s d' n' <> Some k ->
  forall e m, entry s' e m = moved_entry s d n d' n' k (if rf_exchange f then entry s d' n' else None) e m.
Proof.
  intros d n d' n' f s s' k I [k0 [E0 H]] En Ne e m. assert (k0 = k) by congruence. subst k0.
  pose proof (inv_ndup _ _ I) as ND. unfold moved_entry.
  destruct (entry s d' n') as [k'|] eqn:En'.
  - destruct (Z.eqb_spec k k') as [->|Nk]; [congruence|].
    assert (Np : forall a b, pairb a b d n = true -> pairb a b d' n' = false).
    { intros a b X. apply pairb_true in X. destruct X; subst. destruct (pairb d n d' n') eqn:Y; [|reflexivity].
      apply pairb_true in Y. destruct Y; subst. congruence. }
    destruct (rf_exchange f).
    + destruct H as [s1 [s2 [s3 [R1 [R2 [A3 A4]]]]]].
      pose proof (inv_removed _ _ _ _ _ _ I R1) as I1.
      rewrite (entry_added _ _ _ _ _ _ _ A4), (entry_added _ _ _ _ _ _ _ A3), (entry_removed _ _ _ _ _ _ _ (inv_ndup _ _ I1) R2),
        (entry_removed _ _ _ _ _ _ _ ND R1).
      change ((e =? d') && bytes_eqb n' m) with (pairb e m d' n'). change ((e =? d) && bytes_eqb n m) with (pairb e m d n).
      destruct (pairb e m d n) eqn:P1; [rewrite (Np _ _ P1); reflexivity|].
      destruct (pairb e m d' n'); [reflexivity|]. destruct (entry s e m); reflexivity.
    + destruct H as [Hr [s1 [s2 [s3 [R1 [W2 [R3 A4]]]]]]].
      assert (Gk' : exists i', get s k' = Some i') by (destruct R1 as [? [ci [_ [_ [G _]]]]]; eauto). destruct Gk' as [i' Gk'].
      assert (Nd' : d' <> k') by (intros ->; unfold entry in En'; rewrite Gk', (Hr _ Gk') in En'; discriminate).
      assert (He1 : forall a, get s1 k' = Some a -> i_ents a = []).
      { intros a Ga. pose proof (get_removed _ _ _ _ _ k' R1) as X. rewrite Gk' in X. destruct X as [i1 [G1 [_ X]]].
        assert (i1 = a) by congruence. subst. rewrite X by congruence. exact (Hr _ Gk'). }
      assert (I1 : inv [] s1).
      { apply inv_settle with (k := k'); [eapply inv_removed; eauto|]. intros a Ga. right. auto. }
      pose proof (inv_pruned _ _ _ I1 (proj1 W2)) as I2.
      rewrite (entry_added _ _ _ _ _ _ _ A4), (entry_removed _ _ _ _ _ _ _ (inv_ndup _ _ I2) R3),
        (entry_pruned _ _ _ _ _ (proj1 W2) He1), (entry_removed _ _ _ _ _ _ _ ND R1).
      change ((e =? d') && bytes_eqb n' m) with (pairb e m d' n'). change ((e =? d) && bytes_eqb n m) with (pairb e m d n).
      destruct (pairb e m d n) eqn:P1; [rewrite (Np _ _ P1); reflexivity|].
      destruct (pairb e m d' n'); [reflexivity|]. destruct (entry s e m); reflexivity.
  - destruct H as [s1 [Al [R1 A2]]].
    rewrite (entry_added _ _ _ _ _ _ _ A2), (entry_removed _ _ _ _ _ _ _ ND R1).
    change ((e =? d') && bytes_eqb n' m) with (pairb e m d' n'). change ((e =? d) && bytes_eqb n m) with (pairb e m d n).
    destruct (pairb e m d n) eqn:P1.
    + destruct (pairb e m d' n'); [reflexivity|]. destruct (rf_exchange f); reflexivity.
    + destruct (pairb e m d' n') eqn:P2; [|destruct (entry s e m); reflexivity].
      apply pairb_true in P2. destruct P2; subst. rewrite En'. reflexivity.
Qed.

(* --- link counts and open files --- *)
Definition alike (s s' : ns) : Prop := forall j i', get s' j = Some i' -> exists i, get s j = Some i /\ akin i i'.
Lemma alike_removed : forall d n k s s', removed d n k s s' -> alike s s'.
Proof.
  intros d n k s s' R j i' G. pose proof (get_removed _ _ _ _ _ j R) as X. destruct (get s j) as [i|]; [|congruence].
  destruct X as [a [Ga [A _]]]. assert (a = i') by congruence. subst. eauto.
Qed.
Lemma alike_added : forall d n k s s', added d n k s s' -> alike s s'.
Proof.
  intros d n k s s' R j i' G. pose proof (get_added _ _ _ _ _ j R) as X. destruct (get s j) as [i|]; [|congruence].
  destruct X as [a [Ga [A _]]]. assert (a = i') by congruence. subst. eauto.
Qed.
Lemma alike_trans : forall a b c, alike a b -> alike b c -> alike a c.
Proof.
  intros a b c H1 H2 j i' G. destruct (H2 _ _ G) as [i1 [G1 [X1 [X2 [X3 X4]]]]]. destruct (H1 _ _ G1) as [i [G0 [Y1 [Y2 [Y3 Y4]]]]].
  exists i. split; [exact G0|]. repeat split; congruence.
Qed.
Lemma tidy_alike : forall s s', alike s s' -> (forall j, names s' j = 0 -> names s j = 0) -> tidy s -> tidy s'.
Proof.
  intros s s' A N T j i' G Jr N0. destruct (A _ _ G) as [i [G0 [Y1 [Y2 [Y3 Y4]]]]]. rewrite Y2, Y3.
  apply (T j i G0 Jr). auto.
Qed.
Lemma removed_entry : forall d n k s s', removed d n k s s' -> entry s d n = Some k.
Proof. intros d n k s s' [di [ci [Gd [E _]]]]. unfold entry. rewrite Gd. exact E. Qed.
(* a directory that is named once: after the removal it has no name *)
Lemma removed_last : forall x d n k s s', inv x s -> removed d n k s s' -> isdir s' k = true -> names s' k = 0 /\ k <> INO_ROOT.
Proof.
  intros x d n k s s' I R D. rewrite (isdir_removed _ _ _ _ _ _ R) in D.
  pose proof (names_of_entry _ _ _ _ (removed_entry _ _ _ _ _ R)) as N1.
  unfold isdir in D. destruct (get s k) as [i|] eqn:G; [|discriminate].
  pose proof (inv_one _ _ I _ _ G D). rewrite (names_removed _ _ _ _ _ _ R), Z.eqb_refl. split; [lia|].
  intros ->. destruct (inv_root _ _ I). lia.
Qed.
Lemma alive_removed : forall x d n k s s' e, removed d n k s s' -> (e = INO_ROOT \/ 0 < names s e \/ In e x) ->
  e = INO_ROOT \/ 0 < names s' e \/ In e (k :: x).
Proof.
  intros x d n k s s' e R [H|[H|H]]; [auto| |right; right; right; exact H].
  rewrite (names_removed _ _ _ _ _ _ R). destruct (Z.eqb_spec k e) as [->|]; [right; right; left; reflexivity|right; left; lia].
Qed.

Lemma rename_fine : forall d n d' n' f s s', inv [] s -> ren_ok d n d' n' f s s' ->
  (entry s d n = entry s d' n' -> entry s d n = None) -> fine [] s s'.
Proof.
  intros d n d' n' f s s' I [k [En H]] Lg.
  pose proof (names_of_entry _ _ _ _ En) as Nk1.
  destruct (entry s d' n') as [k'|] eqn:En'.
  - destruct (Z.eqb_spec k k') as [->|Nk]; [rewrite En in Lg; specialize (Lg eq_refl); discriminate|].
    pose proof (names_of_entry _ _ _ _ En') as Nk2.
    destruct (rf_exchange f).
    + destruct H as [s1 [s2 [s3 [R1 [R2 [A3 A4]]]]]].
      pose proof (inv_removed _ _ _ _ _ _ I R1) as I1. pose proof (inv_removed _ _ _ _ _ _ I1 R2) as I2.
      assert (N2 : forall j, names s2 j = names s j - (if k =? j then 1 else 0) - (if k' =? j then 1 else 0)).
      { intros j. rewrite (names_removed _ _ _ _ _ _ R2), (names_removed _ _ _ _ _ _ R1). lia. }
      assert (N3 : forall j, names s3 j = names s j - (if k' =? j then 1 else 0)).
      { intros j. rewrite (names_added _ _ _ _ _ _ A3), N2. lia. }
      assert (N4 : forall j, names s' j = names s j).
      { intros j. rewrite (names_added _ _ _ _ _ _ A4), N3. lia. }
      assert (D2 : forall j, isdir s2 j = isdir s j).
      { intros j. rewrite (isdir_removed _ _ _ _ _ _ R2), (isdir_removed _ _ _ _ _ _ R1). reflexivity. }
      assert (D3 : forall j, isdir s3 j = isdir s j) by (intros j; rewrite (isdir_added _ _ _ _ _ _ A3); apply D2).
      destruct (dir_of_entry _ _ _ _ _ I En) as [Dd _]. destruct (dir_of_entry _ _ _ _ _ I En') as [Dd' _].
      assert (Kd : forall c, (c = k \/ c = k') -> isdir s c = true -> names s c = 1 /\ c <> INO_ROOT).
      { intros c Hc D. unfold isdir in D. destruct (get s c) as [i|] eqn:G; [|discriminate].
        pose proof (inv_one _ _ I _ _ G D). assert (1 <= names s c) by (destruct Hc; subst; assumption).
        split; [lia|]. intros ->. destruct (inv_root _ _ I). lia. }
      assert (I3 : inv [k'; k] s3).
      { eapply inv_added; [exact I2|exact A3|rewrite D2; exact Dd'|..].
        - rewrite (entry_removed _ _ _ _ _ _ _ (inv_ndup _ _ I1) R2). fold (pairb d' n' d' n'). rewrite pairb_refl. reflexivity.
        - rewrite D2, N2. intros D. destruct (Kd k (or_introl eq_refl) D) as [X Y]. rewrite X, Z.eqb_refl.
          split; [|exact Y]. destruct (Z.eqb_spec k' k); [congruence|lia].
        - eapply alive_removed; [exact R2|]. eapply alive_removed; [exact R1|]. eapply alive_of_entry; eauto. }
      assert (Np : pairb d n d' n' = false).
      { destruct (pairb d n d' n') eqn:E; [|reflexivity]. apply pairb_true in E. destruct E; subst. congruence. }
      assert (I4 : inv [k'; k] s').
      { eapply inv_added; [exact I3|exact A4|rewrite D3; exact Dd|..].
        - rewrite (entry_added _ _ _ _ _ _ _ A3), (entry_removed _ _ _ _ _ _ _ (inv_ndup _ _ I1) R2),
            (entry_removed _ _ _ _ _ _ _ (inv_ndup _ _ I) R1). fold (pairb d n d' n'). fold (pairb d n d n).
          rewrite pairb_refl, Np. reflexivity.
        - rewrite D3, N3. intros D. destruct (Kd k' (or_intror eq_refl) D) as [X Y]. rewrite X, Z.eqb_refl. split; [lia|exact Y].
        - destruct (alive_of_entry _ _ _ _ _ I En) as [X|[X|[]]]; [auto|]. right. rewrite N3.
          destruct (Z.eqb_spec k' d) as [->|]; [right; left; reflexivity|left; lia]. }
      split; [|split].
      * apply inv_settle with (k := k); [apply inv_settle with (k := k'); [exact I4|]|]; intros i G; left; rewrite N4; lia.
      * eapply safe_trans; [eapply safe_removed; exact R1|]. eapply safe_trans; [eapply safe_removed; exact R2|].
        eapply safe_trans; [eapply safe_added; exact A3|eapply safe_added; exact A4].
      * apply tidy_alike; [|intros j; rewrite N4; auto].
        eapply alike_trans; [eapply alike_removed; exact R1|]. eapply alike_trans; [eapply alike_removed; exact R2|].
        eapply alike_trans; [eapply alike_added; exact A3|eapply alike_added; exact A4].
    + destruct H as [Hr [s1 [s2 [s3 [R1 [W2 [R3 A4]]]]]]].
      assert (Gk' : exists i', get s k' = Some i') by (destruct R1 as [? [ci [_ [_ [G _]]]]]; eauto). destruct Gk' as [i' Gk'].
      assert (Nd' : d' <> k') by (intros ->; unfold entry in En'; rewrite Gk', (Hr _ Gk') in En'; discriminate).
      assert (He1 : forall a, get s1 k' = Some a -> i_ents a = []).
      { intros a Ga. pose proof (get_removed _ _ _ _ _ k' R1) as X. rewrite Gk' in X. destruct X as [i1 [G1 [_ X]]].
        assert (i1 = a) by congruence. subst. rewrite X by congruence. exact (Hr _ Gk'). }
      assert (I1 : inv [] s1).
      { apply inv_settle with (k := k'); [eapply inv_removed; eauto|]. intros a Ga. right. auto. }
      pose proof (inv_pruned _ _ _ I1 (proj1 W2)) as I2. pose proof (inv_removed _ _ _ _ _ _ I2 R3) as I3.
      assert (N2 : forall j, names s2 j = names s j - (if k' =? j then 1 else 0)).
      { intros j. rewrite (names_pruned _ _ _ _ I1 (proj1 W2)), (names_removed _ _ _ _ _ _ R1). reflexivity. }
      assert (N3 : forall j, names s3 j = names s2 j - (if k =? j then 1 else 0)) by (intros j; apply (names_removed _ _ _ _ _ _ R3)).
      assert (N4 : forall j, names s' j = names s2 j).
      { intros j. rewrite (names_added _ _ _ _ _ _ A4), N3. lia. }
      assert (Dd2 : isdir s3 d' = true).
      { rewrite (isdir_removed _ _ _ _ _ _ R3). unfold isdir. rewrite (get_pruned _ _ _ _ (proj1 W2) Nd').
        change (isdir s1 d' = true). rewrite (isdir_removed _ _ _ _ _ _ R1). exact (proj1 (dir_of_entry _ _ _ _ _ I En')). }
      assert (I4 : inv [k] s').
      { eapply inv_added; [exact I3|exact A4|exact Dd2|..].
        - rewrite (entry_removed _ _ _ _ _ _ _ (inv_ndup _ _ I2) R3), (entry_pruned _ _ _ _ _ (proj1 W2) He1),
            (entry_removed _ _ _ _ _ _ _ (inv_ndup _ _ I) R1). fold (pairb d' n' d' n'). rewrite pairb_refl.
          destruct (_ && _); reflexivity.
        - exact (removed_last _ _ _ _ _ _ I2 R3).
        - eapply alive_removed; [exact R3|]. destruct (alive_of_entry _ _ _ _ _ I En') as [X|[X|[]]]; [auto|].
          right; left. rewrite N2. destruct (Z.eqb_spec k' d'); [congruence|lia]. }
      split; [|split].
      * apply inv_settle with (k := k); [exact I4|]. intros i G. left. rewrite N4, N2. destruct (Z.eqb_spec k' k); [congruence|lia].
      * eapply safe_trans; [eapply safe_removed; exact R1|]. eapply safe_trans; [eapply safe_pruned; exact (proj1 W2)|].
        eapply safe_trans; [eapply safe_removed; exact R3|eapply safe_added; exact A4].
      * intros T. assert (T2 : tidy s2).
        { eapply tidy_swept; [exact I1|exact W2|]. intros j a Nj Ga Jr N0. destruct (alike_removed _ _ _ _ _ R1 _ _ Ga) as [b [Gb [_ [X2 [X3 _]]]]].
          rewrite X2, X3. apply (T j b Gb Jr). rewrite (names_removed _ _ _ _ _ _ R1) in N0. destruct (Z.eqb_spec k' j); [congruence|lia]. }
        revert T2. apply tidy_alike; [|intros j; rewrite N4; auto].
        eapply alike_trans; [eapply alike_removed; exact R3|eapply alike_added; exact A4].
  - destruct H as [s1 [[Dd' Al] [R1 A2]]].
    pose proof (inv_removed _ _ _ _ _ _ I R1) as I1.
    assert (N2 : forall j, names s' j = names s j).
    { intros j. rewrite (names_added _ _ _ _ _ _ A2), (names_removed _ _ _ _ _ _ R1). lia. }
    assert (I2 : inv [k] s').
    { eapply inv_added; [exact I1|exact A2|rewrite (isdir_removed _ _ _ _ _ _ R1); exact Dd'|..].
      - rewrite (entry_removed _ _ _ _ _ _ _ (inv_ndup _ _ I) R1), En'. destruct (_ && _); reflexivity.
      - exact (removed_last _ _ _ _ _ _ I R1).
      - eapply alive_removed; [exact R1|]. tauto. }
    split; [|split].
    + apply inv_settle with (k := k); [exact I2|]. intros i G. left. rewrite N2. lia.
    + eapply safe_trans; [eapply safe_removed; exact R1|eapply safe_added; exact A2].
    + apply tidy_alike; [|intros j; rewrite N2; auto].
      eapply alike_trans; [eapply alike_removed; exact R1|eapply alike_added; exact A2].
Qed.

(* a file in transit needs no settling *)
Lemma inv_settle_file : forall k x s, inv (k :: x) s -> isdir s k = false -> inv x s.
Proof.
  intros k x s I D. apply inv_settle with (k := k); [exact I|]. intros i G. right.
  unfold isdir in D. rewrite G in D. eapply inv_file; eauto.
Qed.
Lemma ren_er_safe : forall x d n d' n' f s s', ren_er d n d' n' f s s' -> safe x s s'.
Proof.
  intros x d n d' n' f s s' [k [En H]]. destruct (entry s d' n') as [k'|]; [|eapply safe_removed; exact H].
  destruct (k =? k'); [|destruct (rf_exchange f)].
  - destruct H as [s1 [R P]]. eapply safe_trans; [eapply safe_removed; exact R|eapply safe_pruned; exact P].
  - destruct H as [s1 [R1 H]]. eapply safe_trans; [eapply safe_removed; exact R1|].
    destruct H as [->|[s2 [R2 H]]]; [apply safe_refl|]. eapply safe_trans; [eapply safe_removed; exact R2|].
    destruct H as [->|A]; [apply safe_refl|eapply safe_added; exact A].
  - destruct H as [_ [s1 [R1 H]]]. eapply safe_trans; [eapply safe_removed; exact R1|].
    destruct H as [->|[s2 [R2 H]]]; [apply safe_refl|]. eapply safe_trans; [eapply safe_pruned; exact R2|].
    destruct H as [->|A]; [apply safe_refl|eapply safe_removed; exact A].
Qed.
Lemma ren_er_good : forall d n d' n' f s s', inv [] s -> ren_er d n d' n' f s s' ->
  (forall k, entry s d n = Some k \/ entry s d' n' = Some k -> isdir s k = false) -> good [] s s'.
Proof.
  intros d n d' n' f s s' I Er Hf. split; [|eapply ren_er_safe; eauto]. destruct Er as [k [En H]].
  pose proof (Hf k (or_introl En)) as Fk.
  assert (R0 : forall d n k s s', inv [] s -> isdir s k = false -> removed d n k s s' -> inv [] s').
  { intros d0 n0 k0 a b Ia Fa R. apply inv_settle_file with (k := k0); [eapply inv_removed; eauto|].
    rewrite (isdir_removed _ _ _ _ _ _ R). exact Fa. }
  destruct (entry s d' n') as [k'|] eqn:En'; [|exact (R0 _ _ _ _ _ I Fk H)].
  pose proof (Hf k' (or_intror eq_refl)) as Fk'.
  destruct (k =? k') eqn:K; [|destruct (rf_exchange f)].
  - destruct H as [s1 [R P]]. eapply inv_pruned; [|exact P]. exact (R0 _ _ _ _ _ I Fk R).
  - destruct H as [s1 [R1 H]]. pose proof (R0 _ _ _ _ _ I Fk R1) as I1. destruct H as [->|[s2 [R2 H]]]; [exact I1|].
    assert (F1 : forall j, isdir s1 j = isdir s j) by (intros; eapply isdir_removed; eauto).
    assert (I2 : inv [] s2) by (eapply (R0 _ _ _ _ _ I1); [rewrite F1; exact Fk'|exact R2]).
    destruct H as [->|A]; [exact I2|].
    assert (F2 : forall j, isdir s2 j = isdir s j) by (intros; rewrite (isdir_removed _ _ _ _ _ _ R2); apply F1).
    destruct (dir_of_entry _ _ _ _ _ I En') as [Dd' _].
    eapply inv_added; [exact I2|exact A|rewrite F2; exact Dd'|..].
    + rewrite (entry_removed _ _ _ _ _ _ _ (inv_ndup _ _ I1) R2). fold (pairb d' n' d' n'). rewrite pairb_refl. reflexivity.
    + rewrite F2. congruence.
    + destruct (alive_of_entry _ _ _ _ _ I En') as [X|[X|[]]]; [auto|]. right; left.
      rewrite (names_removed _ _ _ _ _ _ R2), (names_removed _ _ _ _ _ _ R1).
      destruct (Z.eqb_spec k d') as [->|]; [congruence|]. destruct (Z.eqb_spec k' d') as [->|]; [congruence|]. lia.
  - destruct H as [_ [s1 [R1 H]]]. pose proof (R0 _ _ _ _ _ I Fk' R1) as I1. destruct H as [->|[s2 [R2 H]]]; [exact I1|].
    pose proof (inv_pruned _ _ _ I1 R2) as I2. destruct H as [->|R3]; [exact I2|]. eapply R0; [exact I2| |exact R3].
    unfold isdir. rewrite (get_pruned _ _ _ _ R2) by (intros ->; rewrite Z.eqb_refl in K; discriminate).
    change (isdir s1 k = false). rewrite (isdir_removed _ _ _ _ _ _ R1). exact Fk.
Qed.

(* --- reachability --- *)
Lemma opt_cases : forall o : option Z, (exists k, o = Some k) \/ o = None.
Proof. intros [k|]; eauto. Qed.
Section Reach.
Variables s s' : ns.
Variables d d' : Z.
Variables n n' : name.
Variables k : Z.
Variable back : option Z.
Hypothesis En : entry s d n = Some k.
Hypothesis Ent : forall e m, entry s' e m = moved_entry s d n d' n' k back e m.
(* what was at the new name, if anything *)
Hypothesis Old : forall k', entry s d' n' = Some k' -> k' <> k /\ (back = Some k' \/ back = None /\ forall m, entry s k' m = None).
Hypothesis Rd' : reach s d'.
Hypothesis Nu : ~ under s k d'.
Hypothesis Nu2 : forall k', back = Some k' -> entry s d' n' = Some k' /\ reach s d /\ ~ under s k' d /\ ~ under s k' d' /\ ~ under s k d.

Lemma edge_kept : forall e m c, entry s e m = Some c -> c <> k -> entry s d' n' <> Some c -> entry s' e m = Some c.
Proof.
  intros e m c E N1 N2. rewrite Ent. unfold moved_entry. destruct (pairb e m d' n') eqn:P.
  - apply pairb_true in P. destruct P; subst. congruence.
  - destruct (pairb e m d n) eqn:P2; [|exact E]. apply pairb_true in P2. destruct P2; subst. congruence.
Qed.
(* nodes not below what moves stay put *)
Lemma reach_aside : forall c, reach s c -> ~ under s k c -> (forall k', entry s d' n' = Some k' -> ~ under s k' c) -> reach s' c.
Proof.
  intros c R. induction R as [|e m c R IH E]; intros N1 N2; [apply under_self|].
  eapply under_ent; [apply IH|].
  - intros U. apply N1. eapply under_ent; eauto.
  - intros k' Ek U. apply (N2 k' Ek). eapply under_ent; eauto.
  - apply edge_kept; [exact E|..].
    + intros ->. apply N1. apply under_self.
    + intros X. apply (N2 c X). apply under_self.
Qed.
(* nothing below a childless node but itself *)
Lemma under_childless : forall x c, (forall m, entry s x m = None) -> under s x c -> c = x.
Proof. intros x c H U. induction U as [|e m c U IH E]; [reflexivity|]. subst. rewrite H in E. discriminate. Qed.
Lemma new_parent_reach : reach s' d'.
Proof.
  apply reach_aside; [exact Rd'|exact Nu|]. intros k' Ek. destruct (Old k' Ek) as [Nk [B|[B H]]].
  - destruct (Nu2 k' B) as [_ [_ [_ [X _]]]]. exact X.
  - intros U. apply under_childless in U; [|exact H]. subst. rewrite H in Ek. discriminate.
Qed.
Lemma moved_reach : reach s' k.
Proof.
  apply under_ent with (d := d') (n := n'); [exact new_parent_reach|]. rewrite Ent. unfold moved_entry. rewrite pairb_refl. reflexivity.
Qed.
Lemma back_reach : forall k', back = Some k' -> reach s' k'.
Proof.
  intros k' B. destruct (Nu2 k' B) as [E [Rd [U1 [U2 U3]]]]. apply under_ent with (d := d) (n := n).
  - apply reach_aside; [exact Rd|exact U3|]. intros k2 E2. assert (k2 = k') by congruence. subst. exact U1.
  - rewrite Ent. unfold moved_entry. destruct (pairb d n d' n') eqn:P.
    + apply pairb_true in P. destruct P; subst. destruct (Old k' E). congruence.
    + rewrite pairb_refl. exact B.
Qed.
Lemma all_reach : forall c, reach s c -> (entry s d' n' = Some c -> back = Some c \/ exists e m, reach s e /\ entry s e m = Some c /\ (e, m) <> (d', n')) -> reach s' c.
Proof.
  assert (Inner : forall c m x, entry s c m = Some x -> entry s d' n' = Some c -> back = Some c).
  { intros c m x E Ec. destruct (Old c Ec) as [_ [B|[_ H]]]; [exact B|]. rewrite H in E. discriminate. }
  assert (Main : forall c, reach s c -> (forall k', entry s d' n' = Some k' -> k' = c -> back = Some c) -> reach s' c).
  { intros c R. induction R as [|e m c R IH E]; intros H; [apply under_self|].
    destruct (Z.eq_dec c k) as [->|Nk]; [exact moved_reach|].
    destruct (opt_cases (entry s d' n')) as [[k' Ek]|Ek].
    - destruct (Z.eq_dec k' c) as [->|Nc]; [apply back_reach; apply (H c); [exact Ek|reflexivity]|].
      eapply under_ent; [|apply edge_kept; [exact E|exact Nk|congruence]].
      apply IH. intros k2 X ->. eapply Inner; [exact E|exact X].
    - eapply under_ent; [|apply edge_kept; [exact E|exact Nk|congruence]]. apply IH. intros k2 X. congruence. }
  intros c R H. destruct (Z.eq_dec c k) as [->|Nk]; [exact moved_reach|].
  destruct (opt_cases (entry s d' n')) as [[k' Ek]|Ek].
  - destruct (Z.eq_dec k' c) as [->|Nc].
    + destruct (H Ek) as [B|[e [m [Re [Ee Np]]]]]; [apply back_reach; exact B|].
      apply under_ent with (d := e) (n := m).
      * apply Main; [exact Re|]. intros k2 E2 ->. rewrite Ek in E2. injection E2 as ->. eapply Inner; [exact Ee|exact Ek].
      * rewrite Ent. unfold moved_entry. destruct (pairb e m d' n') eqn:P.
        -- exfalso. apply Np. apply pairb_true in P. destruct P; subst; reflexivity.
        -- destruct (pairb e m d n) eqn:P2; [|exact Ee]. apply pairb_true in P2. destruct P2; subst. congruence.
    + apply Main; [exact R|]. intros k2 X ->. congruence.
  - apply Main; [exact R|]. intros k2 X. congruence.
Qed.
End Reach.

(* no directory lies below its own child *)
Inductive walk (s : ns) (x : Z) : nat -> Z -> Prop :=
| walk_0 : walk s x O x
| walk_S : forall j d n k, walk s x j d -> entry s d n = Some k -> walk s x (S j) k.
Lemma under_walk : forall s x c, under s x c -> exists j, walk s x j c.
Proof. intros s x c U. induction U as [|d n k U [j W] E]; [exists O; constructor|]. exists (S j). econstructor; eauto. Qed.
Lemma walk_app : forall s x y i j c, walk s x i y -> walk s y j c -> walk s x (i + j) c.
Proof.
  intros s x y i j c W1 W2. induction W2 as [|j d n k W IH E]; [rewrite Nat.add_0_r; exact W1|].
  rewrite Nat.add_succ_r. econstructor; eauto.
Qed.
Lemma one_parent : forall s c d n e m, inv [] s -> isdir s c = true -> entry s d n = Some c -> entry s e m = Some c -> d = e.
Proof.
  intros s c d n e m I D E1 E2. destruct (Z.eq_dec d e) as [|N]; [assumption|]. exfalso.
  unfold isdir in D. destruct (get s c) as [i|] eqn:G; [|discriminate]. pose proof (inv_one _ _ I _ _ G D) as N1.
  unfold entry in *. destruct (get s d) as [di|] eqn:Gd; [|discriminate]. destruct (get s e) as [ei|] eqn:Ge; [|discriminate].
  apply ent_of_in, cnt_in in E1. apply ent_of_in, cnt_in in E2.
  assert (X : forall s : ns, get s d = Some di -> get s e = Some ei -> cnt c (i_ents di) + cnt c (i_ents ei) <= names s c).
  { clear - N. induction s as [|[a y] r IH]; cbn [get]; [discriminate|]. rewrite names_cons.
    destruct (Z.eqb_spec a d) as [->|Nd]; destruct (Z.eqb_spec d e); try congruence.
    - destruct (Z.eqb_spec d e); [congruence|]. intros [= <-] H. pose proof (names_ge r e ei c H). lia.
    - destruct (Z.eqb_spec a e) as [->|].
      + intros H [= <-]. pose proof (names_ge r d di c H). lia.
      + intros H1 H2. specialize (IH H1 H2). pose proof (cnt_nonneg c (i_ents y)). lia. }
  specialize (X s Gd Ge). lia.
Qed.
Lemma walk_len : forall s i c, inv [] s -> walk s INO_ROOT i c -> isdir s c = true -> forall j, walk s INO_ROOT j c -> i = j.
Proof.
  intros s i c I W. induction W as [|i d n c W IH E]; intros D j W2.
  - inversion W2 as [|j' d n k W' E']; subst; [reflexivity|]. exfalso.
    pose proof (names_of_entry _ _ _ _ E'). destruct (inv_root _ _ I). lia.
  - inversion W2 as [|j' e m k W' E']; subst.
    + exfalso. pose proof (names_of_entry _ _ _ _ E). destruct (inv_root _ _ I). lia.
    + f_equal. assert (d = e) by (eapply one_parent; eauto). subst e. apply IH; [|exact W'].
      exact (proj1 (dir_of_entry _ _ _ _ _ I E)).
Qed.
Lemma not_below_child : forall s d n k, inv [] s -> reach s d -> entry s d n = Some k -> ~ under s k d.
Proof.
  intros s d n k I R E U. destruct (under_walk _ _ _ R) as [i W]. destruct (under_walk _ _ _ U) as [j V].
  assert (W2 : walk s INO_ROOT (S i + j) d) by (eapply walk_app; [econstructor; eauto|exact V]).
  pose proof (walk_len s i d I W (proj1 (dir_of_entry _ _ _ _ _ I E)) _ W2). lia.
Qed.
