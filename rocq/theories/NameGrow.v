(* No operation brings back an inode number but the one that makes a new inode. *)
From Verif Require Import Base NameModel NameSpec NameProofs NameOps.

Definition grows (P : Z -> Prop) (a b : ns) : Prop := forall j i, get b j = Some i -> (exists x, get a j = Some x) \/ P j.
Definition kp (P : Z -> Prop) {A} (m : M A) : Prop := forall s, wp m (fun _ s1 => grows P s s1) (fun _ s1 => grows P s s1) s.
Lemma grows_set : forall P a j0 x, grows P a (set a j0 x).
Proof. intros P a j0 x j i Gj. rewrite get_set in Gj. left. destruct (Z.eqb_spec j j0) as [->|]; [|eauto]. destruct (get a j0); [eauto|discriminate]. Qed.
Lemma grows_del : forall P a j0, grows P a (del a j0).
Proof. intros P a j0 j i Gj. rewrite get_del in Gj. left. destruct (j =? j0); [discriminate|eauto]. Qed.
Lemma grows_trans : forall P a b c, grows P a b -> grows P b c -> grows P a c.
Proof. intros P a b c X Y j i Gj. destruct (Y _ _ Gj) as [[x Gx]|Z0]; [exact (X _ _ Gx)|auto]. Qed.
Lemma grows_refl : forall P a, grows P a a.
Proof. intros P a j i Gj. left; eauto. Qed.
Lemma kp_bind : forall P A B (m : M A) (f : A -> M B), kp P m -> (forall a, kp P (f a)) -> kp P (bind m f).
Proof.
  intros P A B m f X Y s0. eapply wp_bind; [apply X|]. intros a s1 Gr. eapply wp_conseq; [apply Y|..]; cbv beta; intros ? ? G2; exact (grows_trans _ _ _ _ Gr G2).
Qed.
Lemma kp_ret : forall P A (a : A), kp P (ret a). Proof. intros P A a s0; apply wp_ret; apply grows_refl. Qed.
Lemma kp_fail : forall P A e, kp P (@fail A e). Proof. intros P A e s0; apply wp_fail; apply grows_refl. Qed.
Lemma kp_draw : forall P, kp P draw. Proof. intros P s0; apply wp_draw; intros; apply grows_refl. Qed.
Lemma kp_may_fail : forall P, kp P may_fail. Proof. intros P s0; apply wp_may_fail; apply grows_refl. Qed.
Lemma kp_state : forall P, kp P state. Proof. intros P s0; apply wp_state; apply grows_refl. Qed.
Lemma kp_require : forall P b e, kp P (require b e). Proof. intros P b e s0; apply wp_require; intros; apply grows_refl. Qed.
Lemma kp_update : forall P f, (forall a, grows P a (f a)) -> kp P (update f). Proof. intros P f X s0; apply wp_update; apply X. Qed.
Lemma kp_stays : forall P A (m : M A) (Q : ns -> A -> Prop), (forall s, wp m (fun a s' => s' = s /\ Q s a) (stays s) s) -> kp P m.
Proof. intros P A m Q H s0. eapply wp_conseq; [apply H|..]; cbv beta; [intros a s1 [-> _]|intros e s1 ->]; apply grows_refl. Qed.
Ltac kp1 :=
  match goal with
  | |- kp _ (bind _ _) => apply kp_bind
  | |- kp _ (ret _) => apply kp_ret
  | |- kp _ (fail _) => apply kp_fail
  | |- kp _ draw => apply kp_draw
  | |- kp _ may_fail => apply kp_may_fail
  | |- kp _ state => apply kp_state
  | |- kp _ (require _ _) => apply kp_require
  | |- kp _ (update _) => apply kp_update
  | |- grows _ _ (set _ _ _) => apply grows_set
  | |- grows _ _ (del _ _) => apply grows_del
  | |- grows _ ?a ?a => apply grows_refl
  | |- forall _, _ => intros
  | |- kp _ (match ?x with _ => _ end) => destruct x
  | |- grows _ _ (match ?x with _ => _ end) => destruct x
  end.
Lemma kp_stage : forall P j, kp P (stage j). Proof. intros. unfold stage. repeat kp1. Qed.
Lemma kp_lookup : forall P d n, kp P (lookup_by_name d n). Proof. intros. unfold lookup_by_name. kp1; [apply kp_stage|]. repeat kp1. Qed.
Lemma kp_sbn : forall P d n, kp P (stage_by_name d n).
Proof. intros. unfold stage_by_name. kp1; [apply kp_lookup|]. intros. kp1; [apply kp_stage|]. repeat kp1. Qed.
Lemma kp_nodent : forall P d n, kp P (check_nodent d n).
Proof. intros. eapply kp_stays. intros s. apply wp_check_nodent. Qed.
Lemma kp_waccess : forall P d, kp P (check_dir_waccess d).
Proof. intros. eapply kp_stays. intros s. apply wp_check_dir_waccess. Qed.
Lemma kp_can_add : forall P d n, kp P (check_dir_can_add d n).
Proof. intros. eapply kp_stays. intros s. apply wp_check_dir_can_add. Qed.
Lemma kp_add_check : forall P d, kp P (check_add_dentry d).
Proof. intros. eapply kp_stays. intros s. apply wp_check_add_dentry. Qed.
Lemma kp_rmdir_child : forall P k i, kp P (check_rmdir_child k i).
Proof. intros. eapply kp_stays. intros s. eapply wp_check_rmdir_child. Qed.
Ltac kp2 := first [apply kp_stage|apply kp_lookup|apply kp_sbn|apply kp_nodent|apply kp_waccess|apply kp_can_add|apply kp_add_check|apply kp_rmdir_child|kp1].
Lemma kp_update_nlink : forall P d j dif, kp P (update_nlink d j dif). Proof. intros. unfold update_nlink. repeat kp2. Qed.
Lemma kp_add_dentry : forall P d n j, kp P (add_dentry d n j).
Proof. intros. unfold add_dentry. repeat first [apply kp_update_nlink|kp2]. Qed.
Lemma kp_remove_dentry : forall P d n, kp P (remove_dentry d n).
Proof. intros. unfold remove_dentry. repeat first [apply kp_update_nlink|kp2]. Qed.
Lemma kp_remove_inode : forall P j, kp P (remove_inode j). Proof. intros. unfold remove_inode. repeat kp2. Qed.
Lemma kp_drop : forall P j, kp P (drop_unlinked j). Proof. intros. unfold drop_unlinked. repeat first [apply kp_remove_inode|kp2]. Qed.
Lemma kp_drop2 : forall P j, kp P (fun o s => match drop_unlinked j o s with Er _ _ _ => Abort | r => r end).
Proof. intros P j s o. pose proof (kp_drop P j s o) as X. destruct (drop_unlinked j o s); auto. Qed.
Lemma kp_try_prune : forall P j, kp P (try_prune j).
Proof. intros. unfold try_prune. repeat first [apply kp_drop|apply kp_drop2|kp2]. Qed.
Lemma kp_do_add : forall P d n j b, kp P (do_add_dentry d n j b).
Proof.
  intros P d n j b s0 o0. unfold do_add_dentry. pose proof (kp_add_dentry P d n j s0 o0) as X.
  destruct (add_dentry d n j o0 s0) as [u0 o1 s1|e1 o1 s1|]; auto. destruct b; auto.
  pose proof (kp_remove_inode P j s1 o1) as Y. destruct (remove_inode j o1 s1); auto; eapply grows_trans; eauto.
Qed.
Lemma kp_spawn : forall (P : Z -> Prop) j b p, P j -> kp P (spawn j b p).
Proof.
  intros P j b p Pj. unfold spawn. kp1; [apply kp_may_fail|]. intros. kp1; [apply kp_state|]. intros. kp1; [apply kp_fail|].
  kp1; [apply kp_fail|]. apply kp_update. intros x y i. cbn [get]. destruct (Z.eqb_spec j y) as [->|]; [auto|eauto].
Qed.
Lemma kp_stage_rename : forall P d n b, kp P (stage_rename_at d n b).
Proof.
  intros. unfold stage_rename_at. kp1; [apply kp_waccess|]. intros _ s0 o0. pose proof (kp_sbn P d n s0 o0) as X.
  destruct (stage_by_name d n o0 s0) as [p o1 s1|e1 o1 s1|]; [|destruct e1; auto; destruct b; auto|exact Logic.I].
  unfold may_fail, bind, draw, ret, fail. destruct o1 as [|[] o1]; exact X.
Qed.
Lemma kp_unmake : forall P j, kp P (fun o s => match remove_inode j o s with Abort => @Abort unit | Ok _ o' s' => Er EFAIL o' s' | Er _ o' s' => Er EFAIL o' s' end).
Proof. intros P j s o. pose proof (kp_remove_inode P j s o) as X. destruct (remove_inode j o s); auto. Qed.
Ltac kp3 := repeat first [apply kp_remove_dentry|apply kp_try_prune|apply kp_do_add|apply kp_stage_rename|apply kp_unmake|kp2].
Lemma op_grows : forall op s o,
  match run_op op o s with
  | Ok _ _ s' | Er _ _ s' =>
    grows (fun k => match op with NCreate _ _ j _ | NMknod _ _ j | NSymlink _ _ j | NMkdir _ _ j => j = k | _ => False end) s s'
  | Abort => True
  end.
Proof.
  intros op s o.
  assert (W : kp (fun k => match op with NCreate _ _ j _ | NMknod _ _ j | NSymlink _ _ j | NMkdir _ _ j => j = k | _ => False end) (run_op op)).
  { destruct op; cbn [run_op]; unfold create, mknod, symlink, mkdir, link, unlink, rmdir, rename, open, release, forget,
      rename_specific, rename_move, rename_replace, rename_exchange, check_rename, check_rename_exchange, check_nomlink;
    repeat (kp3; try (apply kp_spawn; reflexivity)). }
  exact (W s o).
Qed.
