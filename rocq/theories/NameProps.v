(* Link counts (C14), rename (C15), deleted-but-open files (C41), the link limit (C45). *)
From Verif Require Import Base NameModel NameSpec NameProofs NameOps NameRename NameGrow.

(* What the kernel never asks for: a rename between two names of one inode (vfs_rename returns
   at once), a link into a directory that was removed (may_create refuses). *)
Definition legal (s : ns) (op : nop) : Prop :=
  match op with
  | NRename d n d' n' _ => entry s d n = entry s d' n' -> entry s d n = None
  | NLink d _ _ => isdir s d = true -> d = INO_ROOT \/ 0 < names s d
  | _ => True
  end.
(* a failed rename is let through when it changed nothing or moved no directory *)
Definition mild (s : ns) (op : nop) (s' : ns) : Prop :=
  match op with
  | NRename d n d' n' _ => s' = s \/ forall k, entry s d n = Some k \/ entry s d' n' = Some k -> isdir s k = false
  | _ => True
  end.
Inductive hist : ns -> Prop :=
| hist_root : hist ns_root
| hist_ok : forall s op o u o' s', hist s -> legal s op -> run_op op o s = Ok u o' s' -> hist s'
| hist_er : forall s op o e o' s', hist s -> legal s op -> run_op op o s = Er e o' s' -> mild s op s' -> hist s'.
(* histories in which nothing fails half-way *)
Inductive clean : ns -> Prop :=
| clean_root : clean ns_root
| clean_ok : forall s op o u o' s', clean s -> legal s op -> run_op op o s = Ok u o' s' -> clean s'
| clean_er : forall s op o e o', clean s -> legal s op -> run_op op o s = Er e o' s -> clean s.

Lemma inv_ns_root : inv [] ns_root.
Proof.
  constructor.
  - repeat constructor. intros [].
  - intros k i. unfold ns_root. cbn [get]. destruct (Z.eqb_spec INO_ROOT k) as [<-|]; [|discriminate].
    intros [= <-]. reflexivity.
  - intros d di n k. unfold ns_root. cbn [get]. destruct (INO_ROOT =? d); [|discriminate]. intros [= <-] [].
  - intros k i. unfold ns_root. cbn [get]. destruct (INO_ROOT =? k); [|discriminate]. intros [= <-]. reflexivity.
  - intros k i _ _. cbn. lia.
  - split; [|reflexivity]. eexists. split; reflexivity.
  - intros d di. unfold ns_root. cbn [get]. destruct (INO_ROOT =? d); [|discriminate]. intros [= <-]. constructor.
  - intros k i. unfold ns_root. cbn [get]. destruct (INO_ROOT =? k); [|discriminate]. intros [= <-]. reflexivity.
  - intros k i. unfold ns_root. cbn [get]. destruct (INO_ROOT =? k); [|discriminate]. intros [= <-]. cbn. lia.
Qed.

Definition released (op : nop) : list Z := match op with NRelease k => [k] | _ => [] end.
Lemma op_outcome : forall op s, inv [] s -> legal s op -> forall o,
  match run_op op o s with
  | Ok _ _ s' => fine (released op) s s'
  | Er e _ s' => safe (released op) s s' /\ (mild s op s' -> inv [] s')
  | Abort => True
  end.
Proof.
  intros op s I Lg o.
  assert (W : forall x (m : M unit), outcome m x s ->
     match m o s with Ok _ _ s' => fine x s s' | Er e _ s' => safe x s s' /\ (mild s op s' -> inv [] s') | Abort => True end).
  { intros x m H. specialize (H o). destruct (m o s) as [a o' s'|e o' s'|]; auto. destruct H as [H1 H2]. auto. }
  destruct op; cbn [run_op released].
  - apply W. apply create_ok; exact I.
  - apply W. apply mknod_ok; exact I.
  - apply W. apply symlink_ok; exact I.
  - apply W. apply mkdir_ok; exact I.
  - apply W. apply link_ok; [exact I|exact Lg].
  - apply W. apply unlink_ok; exact I.
  - apply W. apply rmdir_ok; exact I.
  - pose proof (wp_rename d n d' n' f s I o) as H. destruct (rename d n d' n' f o s) as [a o' s'|e o' s'|]; [|..|exact Logic.I].
    + eapply rename_fine; eauto.
    + destruct H as [->|[_ H]]; [split; [apply safe_refl|intros _; exact I]|]. split; [eapply ren_er_safe; eauto|].
      intros [->|M]; [exact I|]. exact (proj1 (ren_er_good _ _ _ _ _ _ _ I H M)).
  - apply W. apply open_ok; exact I.
  - apply W. apply release_ok; exact I.
  - apply W. apply forget_ok; exact I.
Qed.
Lemma hist_inv : forall s, hist s -> inv [] s.
Proof.
  intros s H. induction H as [|s op o u o' s' H IH Lg E|s op o e o' s' H IH Lg E M].
  - exact inv_ns_root.
  - pose proof (op_outcome op s IH Lg o) as X. rewrite E in X. exact (proj1 X).
  - pose proof (op_outcome op s IH Lg o) as X. rewrite E in X. apply (proj2 X M).
Qed.
Lemma clean_hist : forall s, clean s -> hist s.
Proof.
  intros s H. induction H as [|s op o u o' s' H IH Lg E|s op o e o' H IH Lg E]; [constructor|eapply hist_ok; eauto|exact IH].
Qed.

(* ---- C14 ---- *)
Theorem link_counts_exact : forall s, hist s -> links_exact s.
Proof. intros s H. exact (inv_links _ _ (hist_inv _ H)). Qed.
Print Assumptions link_counts_exact.

(* names never dangle and a directory never has two of them *)
Theorem names_lead_somewhere : forall s d n k, hist s -> entry s d n = Some k ->
  exists i, get s k = Some i /\ (i_dir i = true -> names s k = 1).
Proof.
  intros s d n k H E. pose proof (hist_inv _ H) as I. destruct (dir_of_entry _ _ _ _ _ I E) as [_ [i G]].
  exists i. split; [exact G|]. intros D. pose proof (inv_one _ _ I _ _ G D). pose proof (names_of_entry _ _ _ _ E). lia.
Qed.
Print Assumptions names_lead_somewhere.

Definition exec (op : nop) (o : list bool) (s : ns) : ns :=
  match run_op op o s with Ok _ _ s' => s' | Er _ _ s' => s' | Abort => s end.
Definition okb (op : nop) (o : list bool) (s : ns) : bool := match run_op op o s with Ok _ _ _ => true | _ => false end.
Lemma hist_exec : forall s op o, hist s -> legal s op -> okb op o s = true -> hist (exec op o s).
Proof.
  intros s op o H Lg E. unfold okb, exec in *. destruct (run_op op o s) as [u o' s'| |] eqn:R; try discriminate.
  eapply hist_ok; eauto.
Qed.
Lemma clean_exec : forall s op o, clean s -> legal s op -> okb op o s = true -> clean (exec op o s).
Proof.
  intros s op o H Lg E. unfold okb, exec in *. destruct (run_op op o s) as [u o' s'| |] eqn:R; try discriminate.
  eapply clean_ok; eauto.
Qed.
Notation A_ := [97]. Notation B_ := [98]. Notation C_ := [99]. Notation F_ := [102].
Definition plain := mkRf false false false.
Definition xchg := mkRf false true false.

(* two directories, a file with two names in them, the directories exchanged one level apart,
   one name replaced *)
Definition ex1 : ns :=
  exec (NRename 2 F_ INO_ROOT C_ plain) []
  (exec (NRename 2 B_ INO_ROOT F_ xchg) []
  (exec (NCreate INO_ROOT C_ 5 false) []
  (exec (NLink INO_ROOT F_ 4) []
  (exec (NCreate 2 F_ 4 false) []
  (exec (NMkdir 2 B_ 3) []
  (exec (NMkdir INO_ROOT A_ 2) [] ns_root)))))).
Ltac run_hist := repeat (apply clean_exec; [|first [exact Logic.I|vm_compute; discriminate|vm_compute; auto; fail]|vm_compute; reflexivity]); exact clean_root.
Example ex1_clean : clean ex1.
Proof. unfold ex1. run_hist. Qed.
Example link_counts_exact_example : links_exact ex1 /\ option_map i_nlink (get ex1 4) = Some 2 /\
  option_map i_nlink (get ex1 INO_ROOT) = Some 4 /\ option_map i_nlink (get ex1 2) = Some 2 /\ get ex1 5 = None.
Proof. split; [apply link_counts_exact, clean_hist, ex1_clean|vm_compute; auto]. Qed.
Example names_lead_somewhere_example : entry ex1 INO_ROOT F_ = Some 3 /\ names ex1 3 = 1.
Proof. vm_compute. auto. Qed.

(* The guard on failed renames is needed: a directory loses its name when the second half of
   its rename fails; closing it then drops it, and the file in it keeps a link no name accounts
   for. *)
Definition lost1 : ns :=
  exec (NOpen 2) []
  (exec (NCreate 2 F_ 3 false) []
  (exec (NMkdir INO_ROOT A_ 2) [] ns_root)).
(* every point passes but the insertion of the new name *)
Definition late : list bool := repeat false 15 ++ [true].
Theorem link_counts_after_failed_rename_refuted : exists s o e o' s1 o2 s2,
  clean s /\ run_op (NRename INO_ROOT A_ INO_ROOT B_ plain) o s = Er e o' s1 /\
  run_op (NRelease 2) [] s1 = Ok tt o2 s2 /\ ~ links_exact s2.
Proof.
  exists lost1. exists late.
  eexists _, _, _, _, _. split; [unfold lost1; run_hist|]. split; [vm_compute; reflexivity|]. split; [vm_compute; reflexivity|].
  intros X. specialize (X 3 (mkIno false 1 2 0 false [] false) eq_refl). vm_compute in X. discriminate.
Qed.
Print Assumptions link_counts_after_failed_rename_refuted.

(* ---- C15 ---- *)
(* on success the new name leads to the old file, the old name to nothing (to the other file,
   when exchanged), every other name to what it led to *)
Theorem rename_success : forall s d n d' n' f o u o' s' k, hist s ->
  run_op (NRename d n d' n' f) o s = Ok u o' s' -> entry s d n = Some k -> entry s d' n' <> Some k ->
  entry s' d' n' = Some k /\
  entry s' d n = (if rf_exchange f then entry s d' n' else None) /\
  forall e m, (e, m) <> (d, n) -> (e, m) <> (d', n') -> entry s' e m = entry s e m.
Proof.
  intros s d n d' n' f o u o' s' k H E En Nk. pose proof (hist_inv _ H) as I. cbn [run_op] in E.
  pose proof (wp_rename d n d' n' f s I o) as W. rewrite E in W.
  pose proof (ren_entries _ _ _ _ _ _ _ _ I W En Nk) as X.
  assert (Np : pairb d n d' n' = false).
  { destruct (pairb d n d' n') eqn:P; [|reflexivity]. apply pairb_true in P. destruct P; subst. congruence. }
  split; [|split].
  - rewrite X. unfold moved_entry. rewrite pairb_refl. reflexivity.
  - rewrite X. unfold moved_entry. rewrite Np, pairb_refl. reflexivity.
  - intros e m N1 N2. rewrite X. unfold moved_entry.
    destruct (pairb e m d' n') eqn:P1; [apply pairb_true in P1; destruct P1; subst; congruence|].
    destruct (pairb e m d n) eqn:P2; [apply pairb_true in P2; destruct P2; subst; congruence|]. reflexivity.
Qed.
Print Assumptions rename_success.

(* everything reachable stays so, but for a file replaced under its last name *)
Theorem rename_keeps_reachable : forall s d n d' n' f o u o' s' k, hist s ->
  run_op (NRename d n d' n' f) o s = Ok u o' s' -> entry s d n = Some k -> entry s d' n' <> Some k ->
  reach s d -> reach s d' ->
  (* the kernel refuses to move a directory below itself *)
  ~ under s k d' -> (forall k', rf_exchange f = true -> entry s d' n' = Some k' -> ~ under s k' d) ->
  forall c, reach s c ->
  (entry s d' n' = Some c -> rf_exchange f = true \/ exists e m, reach s e /\ entry s e m = Some c /\ (e, m) <> (d', n')) ->
  reach s' c.
Proof.
  intros s d n d' n' f o u o' s' k H E En Nk Rd Rd' Nu Nu2 c Rc Hc. pose proof (hist_inv _ H) as I. cbn [run_op] in E.
  pose proof (wp_rename d n d' n' f s I o) as W. rewrite E in W.
  pose proof (ren_entries _ _ _ _ _ _ _ _ I W En Nk) as X.
  eapply all_reach with (k := k) (back := if rf_exchange f then entry s d' n' else None); try eassumption.
  - intros k' Ek. split; [congruence|]. destruct (rf_exchange f) eqn:Fx; [auto|]. right. split; [reflexivity|].
    destruct W as [k0 [E0 W]]. assert (k0 = k) by congruence. subst k0. rewrite Ek in W.
    destruct (Z.eqb_spec k k') as [->|]; [congruence|]. rewrite Fx in W. destruct W as [Hr _].
    intros m. unfold entry. destruct (get s k') as [i|] eqn:G; [|reflexivity]. rewrite (Hr _ G). reflexivity.
  - intros k' B. destruct (rf_exchange f) eqn:Fx; [|discriminate]. split; [exact B|]. split; [exact Rd|].
    split; [exact (Nu2 k' eq_refl B)|]. split; eapply not_below_child; eauto.
  - intros Ec. destruct (Hc Ec) as [Fx|Y]; [left; rewrite Fx; exact Ec|auto].
Qed.
Print Assumptions rename_keeps_reachable.

(* a refusal - any error but a failing device or allocation - changes nothing *)
Theorem rename_refusal_changes_nothing : forall s d n d' n' f o e o' s', hist s ->
  run_op (NRename d n d' n' f) o s = Er e o' s' -> e <> EFAIL -> s' = s.
Proof.
  intros s d n d' n' f o e o' s' H E Ne. pose proof (wp_rename d n d' n' f s (hist_inv _ H) o) as W.
  cbn [run_op] in E. rewrite E in W. destruct W as [W|[W _]]; [exact W|contradiction].
Qed.
Print Assumptions rename_refusal_changes_nothing.

(* one name onto another of the same file (the kernel does not ask for it): the file stays *)
Theorem rename_between_links_keeps_file : forall s d n d' n' f o u o' s' k, hist s ->
  run_op (NRename d n d' n' f) o s = Ok u o' s' -> entry s d n = Some k -> entry s d' n' = Some k -> (d, n) <> (d', n') ->
  entry s' d' n' = Some k /\ exists i, get s' k = Some i.
Proof.
  intros s d n d' n' f o u o' s' k H E En En' Np. pose proof (hist_inv _ H) as I. cbn [run_op] in E.
  pose proof (wp_rename d n d' n' f s I o) as W. rewrite E in W. destruct W as [k0 [E0 W]].
  assert (k0 = k) by congruence. subst k0. rewrite En', Z.eqb_refl in W. destruct W as [s1 [R W]].
  assert (E1 : entry s1 d' n' = Some k).
  { rewrite (entry_removed _ _ _ _ _ _ _ (inv_ndup _ _ I) R). fold (pairb d' n' d n). destruct (pairb d' n' d n) eqn:P; [|exact En'].
    apply pairb_true in P. destruct P; subst. congruence. }
  assert (N1 : 1 <= names s1 k) by (eapply names_of_entry; exact E1).
  destruct (dir_of_entry _ _ _ _ _ I En) as [_ [i Gk]].
  assert (D : i_dir i = false).
  { destruct (i_dir i) eqn:D; [|reflexivity]. pose proof (inv_one _ _ I _ _ Gk D).
    rewrite (names_removed _ _ _ _ _ _ R), Z.eqb_refl in N1. lia. }
  assert (I1 : inv [] s1).
  { apply inv_settle_file with (k := k); [eapply inv_removed; eauto|]. rewrite (isdir_removed _ _ _ _ _ _ R).
    unfold isdir. rewrite Gk. exact D. }
  assert (S1 : s' = s1).
  { destruct (proj1 W) as [->|[a [Ga [O _]]]]; [reflexivity|]. destruct (orphan_nameless _ _ _ I1 Ga O). lia. }
  subst s'. split; [exact E1|]. eapply present_removed; eauto.
Qed.
Print Assumptions rename_between_links_keeps_file.

(* before the exchange in ex1 *)
Definition ex0 : ns :=
  exec (NCreate INO_ROOT C_ 5 false) []
  (exec (NLink INO_ROOT F_ 4) []
  (exec (NCreate 2 F_ 4 false) []
  (exec (NMkdir 2 B_ 3) []
  (exec (NMkdir INO_ROOT A_ 2) [] ns_root)))).
Example ex0_hist : hist ex0.
Proof. apply clean_hist. unfold ex0. run_hist. Qed.
Example rename_success_example : okb (NRename 2 B_ INO_ROOT C_ xchg) [] ex0 = true /\
  okb (NRename 2 F_ INO_ROOT C_ plain) [] ex0 = true /\ okb (NRename 2 F_ 3 B_ plain) [] ex0 = true /\
  entry ex0 2 B_ = Some 3 /\ entry ex0 INO_ROOT C_ = Some 5.
Proof. vm_compute. auto. Qed.
Lemma ex0_under : forall x c, under ex0 x c -> c = x \/ 1 <= x <= 2.
Proof.
  intros x c U. induction U as [|d n k U IH E]; [auto|]. destruct IH as [->|]; [|auto]. right.
  unfold entry in E. change ex0 with (ltac:(let y := eval vm_compute in ex0 in exact y)) in E. cbn [get] in E.
  repeat (match type of E with context[if ?a =? x then _ else _] => destruct (Z.eqb_spec a x); [subst; cbn [i_ents ent_of] in E; first [discriminate|lia]|] end).
  discriminate.
Qed.
Example rename_keeps_reachable_example : reach ex0 2 /\ reach ex0 INO_ROOT /\ ~ under ex0 3 INO_ROOT /\ ~ under ex0 5 2.
Proof.
  split; [eapply under_ent with (n := A_); [apply under_self|reflexivity]|]. split; [apply under_self|].
  split; intros U; apply ex0_under in U; unfold INO_ROOT in U; lia.
Qed.
Example rename_refusal_example : exists o' s', run_op (NRename INO_ROOT F_ INO_ROOT A_ plain) [] ex0 = Er ENOTEMPTY o' s'.
Proof. eexists _, _. vm_compute. reflexivity. Qed.
Example rename_between_links_example : okb (NRename INO_ROOT F_ 2 F_ plain) [] ex0 = true /\
  entry ex0 INO_ROOT F_ = Some 4 /\ entry ex0 2 F_ = Some 4.
Proof. vm_compute. auto. Qed.

(* "whatever its outcome" is false: when the second half fails, the file has no name left *)
Theorem rename_failure_keeps_file_refuted : exists s o e o' s',
  clean s /\ run_op (NRename INO_ROOT F_ INO_ROOT A_ plain) o s = Er e o' s' /\
  entry s INO_ROOT F_ = Some 2 /\ reach s 2 /\ names s' 2 = 0 /\ ~ reach s' 2.
Proof.
  exists (exec (NCreate INO_ROOT F_ 2 false) [] ns_root). exists late. eexists _, _, _.
  split; [run_hist|]. split; [vm_compute; reflexivity|]. split; [reflexivity|].
  split; [eapply under_ent with (n := F_); [apply under_self|reflexivity]|]. split; [reflexivity|].
  match goal with |- ~ reach ?x 2 => assert (X : forall c, reach x c -> c = INO_ROOT) end.
  { intros c U. induction U as [|d n k U IH E]; [reflexivity|]. subst d. discriminate. }
  intros U. apply X in U. discriminate.
Qed.
Print Assumptions rename_failure_keeps_file_refuted.
(* likewise a replaced target is gone though the rename failed *)
Theorem rename_failure_keeps_target_refuted : exists s o e o' s',
  clean s /\ run_op (NRename INO_ROOT F_ INO_ROOT A_ plain) o s = Er e o' s' /\
  entry s INO_ROOT A_ = Some 3 /\ get s' 3 = None.
Proof.
  exists (exec (NCreate INO_ROOT A_ 3 false) [] (exec (NCreate INO_ROOT F_ 2 false) [] ns_root)).
  exists (repeat false 20 ++ [true]). eexists _, _, _.
  split; [run_hist|]. split; [vm_compute; reflexivity|]. split; reflexivity.
Qed.
Print Assumptions rename_failure_keeps_target_refuted.
(* a name onto itself: the file is deleted (only the kernel's own check prevents it) *)
Theorem rename_onto_itself_refuted : exists s o' s',
  clean s /\ run_op (NRename INO_ROOT F_ INO_ROOT F_ plain) [] s = Ok tt o' s' /\
  entry s INO_ROOT F_ = Some 2 /\ get s' 2 = None.
Proof.
  exists (exec (NCreate INO_ROOT F_ 2 false) [] ns_root). eexists _, _.
  split; [run_hist|]. split; [vm_compute; reflexivity|]. split; reflexivity.
Qed.
Print Assumptions rename_onto_itself_refuted.

(* ---- C41 ---- *)
(* any step by any caller, any outcome: an open file stays, with its handles *)
Theorem open_file_stays : forall s op o k i, hist s -> legal s op -> op <> NRelease k ->
  get s k = Some i -> 0 < i_nopen i ->
  match run_op op o s with
  | Ok _ _ s' | Er _ _ s' => exists i', get s' k = Some i' /\ i_nopen i <= i_nopen i' /\ i_lost i' = i_lost i /\ i_dir i' = i_dir i
  | Abort => True
  end.
Proof.
  intros s op o k i H Lg Nr G N. pose proof (op_outcome op s (hist_inv _ H) Lg o) as X.
  assert (Nx : ~ In k (released op)) by (destruct op; cbn; try tauto; intros [<-|[]]; congruence).
  destruct (run_op op o s) as [u o' s'|e o' s'|]; [|..|exact Logic.I].
  - destruct X as [_ [X _]]. exact (X k i Nx G N).
  - destruct X as [X _]. exact (X k i Nx G N).
Qed.
Print Assumptions open_file_stays.

(* runs: k's handles counted from outside, opens and releases that succeeded *)
Inductive run_from (k : Z) : ns -> Z -> ns -> Prop :=
| rf_here : forall s, run_from k s 0 s
| rf_step : forall s h s1 op o s', run_from k s h s1 -> legal s1 op -> op <> NRelease k ->
    ((exists u o', run_op op o s1 = Ok u o' s') \/ (exists e o', run_op op o s1 = Er e o' s' /\ mild s1 op s')) ->
    run_from k s h s'
| rf_release : forall s h s1 o o' s', run_from k s h s1 -> run_op (NRelease k) o s1 = Ok tt o' s' -> run_from k s (h + 1) s'
| rf_release_er : forall s h s1 o e o' s', run_from k s h s1 -> run_op (NRelease k) o s1 = Er e o' s' -> run_from k s (h + 1) s'.
Lemma run_from_hist : forall k s h s', hist s -> run_from k s h s' -> hist s' /\ 0 <= h.
Proof.
  intros k s h s' H R. induction R as [|s h s1 op o s' R IH Lg Nr E|s h s1 o o' s' R IH E|s h s1 o e o' s' R IH E].
  - split; [exact H|lia].
  - destruct (IH H) as [H1 Hh]. split; [|exact Hh]. destruct E as [[u [o' E]]|[e [o' [E M]]]]; [eapply hist_ok; eauto|eapply hist_er; eauto].
  - destruct (IH H) as [H1 Hh]. split; [|lia]. eapply hist_ok; eauto. exact Logic.I.
  - destruct (IH H) as [H1 Hh]. split; [|lia]. eapply hist_er; eauto; exact Logic.I.
Qed.
Lemma release_effect : forall k o s i, get s k = Some i ->
  match run_op (NRelease k) o s with
  | Ok _ _ s' => swept k (set s k (with_nopen i (i_nopen i - 1))) s' /\ i_nopen i <> 0
  | Er _ _ s' => s' = s \/ pruned k (set s k (with_nopen i (i_nopen i - 1))) s'
  | Abort => True
  end.
Proof.
  intros k o s i G.
  assert (W : wp (release k) (fun _ s' => swept k (set s k (with_nopen i (i_nopen i - 1))) s' /\ i_nopen i <> 0)
                 (fun _ s' => s' = s \/ pruned k (set s k (with_nopen i (i_nopen i - 1))) s') s).
  { unfold release. eapply wp_bind; [eapply wp_conseq; [apply wp_stage|intros a s' X; exact X|auto]|]. intros a s' [-> Ga].
    assert (a = i) by congruence. subst a.
    apply wp_bind with (P := fun _ s' => s' = s /\ i_nopen i <> 0).
    { apply wp_require; [|auto]. intros X. split; [reflexivity|]. intros Y. rewrite Y in X. discriminate. }
    intros [] s' [-> No].
    apply wp_bind with (P := fun _ s' => s' = s); [apply wp_may_fail; auto|]. intros [] s' ->.
    apply wp_bind with (P := fun _ s' => s' = set s k (with_nopen i (i_nopen i - 1))); [apply wp_update; rewrite G; reflexivity|].
    intros [] s' ->. eapply wp_conseq; [apply wp_try_prune|..]; cbv beta; [auto|]. intros e s' [_ P]. auto. }
  exact (W o).
Qed.
(* with fewer closes than handles, the file is there *)
Theorem open_file_survives : forall k s h s' i, hist s -> run_from k s h s' -> get s k = Some i -> h < i_nopen i ->
  exists i', get s' k = Some i' /\ i_nopen i - h <= i_nopen i' /\ i_lost i' = i_lost i /\ i_dir i' = i_dir i.
Proof.
  intros k s h s' i H R. revert i. induction R as [|s h s1 op o s' R IH Lg Nr E|s h s1 o o' s' R IH E|s h s1 o e o' s' R IH E]; intros i G Hh.
  - exists i. repeat split; auto. lia.
  - destruct (IH H i G Hh) as [i1 [G1 [N1 [L1 D1]]]]. destruct (run_from_hist _ _ _ _ H R) as [H1 Hp].
    pose proof (open_file_stays s1 op o k i1 H1 Lg Nr G1 ltac:(lia)) as X.
    assert (Y : exists i', get s' k = Some i' /\ i_nopen i1 <= i_nopen i' /\ i_lost i' = i_lost i1 /\ i_dir i' = i_dir i1).
    { destruct E as [[u [o' E]]|[e [o' [E _]]]]; rewrite E in X; exact X. }
    destruct Y as [i2 [G2 [N2 [L2 D2]]]]. exists i2. repeat split; [exact G2|lia|congruence|congruence].
  - destruct (IH H i G ltac:(lia)) as [i1 [G1 [N1 [L1 D1]]]].
    pose proof (release_effect k o s1 i1 G1) as X. rewrite E in X. destruct X as [[P _] _].
    assert (Gs : get (set s1 k (with_nopen i1 (i_nopen i1 - 1))) k = Some (with_nopen i1 (i_nopen i1 - 1))) by (rewrite get_set, G1, Z.eqb_refl; reflexivity).
    destruct P as [->|[a [Ga [_ [N0 _]]]]].
    + rewrite Gs. eexists. split; [reflexivity|]. cbn. repeat split; [lia|exact L1|exact D1].
    + exfalso. rewrite Gs in Ga. injection Ga as <-. cbn in N0. lia.
  - destruct (IH H i G ltac:(lia)) as [i1 [G1 [N1 [L1 D1]]]].
    pose proof (release_effect k o s1 i1 G1) as X. rewrite E in X.
    assert (Gs : get (set s1 k (with_nopen i1 (i_nopen i1 - 1))) k = Some (with_nopen i1 (i_nopen i1 - 1))) by (rewrite get_set, G1, Z.eqb_refl; reflexivity).
    destruct X as [->|[->|[a [Ga [_ [N0 _]]]]]].
    + exists i1. repeat split; auto. lia.
    + rewrite Gs. eexists. split; [reflexivity|]. cbn. repeat split; [lia|exact L1|exact D1].
    + exfalso. rewrite Gs in Ga. injection Ga as <-. cbn in N0. lia.
Qed.
Print Assumptions open_file_survives.

(* storage goes with the last close *)
Theorem last_close_frees : forall s k i o o' s', hist s -> get s k = Some i -> k <> INO_ROOT -> names s k = 0 -> i_nopen i = 1 ->
  i_pin i = false -> run_op (NRelease k) o s = Ok tt o' s' -> get s' k = None /\ forall j, j <> k -> get s' j = get s j.
Proof.
  intros s k i o o' s' H G Kr N0 No Pi E. pose proof (hist_inv _ H) as I.
  pose proof (release_effect k o s i G) as X. rewrite E in X. destruct X as [[P W] _].
  assert (Gs : get (set s k (with_nopen i (i_nopen i - 1))) k = Some (with_nopen i (i_nopen i - 1))) by (rewrite get_set, G, Z.eqb_refl; reflexivity).
  split.
  - apply (W _ Gs); [exact (nameless_orphan _ _ _ I G Kr N0)|cbn; lia|exact Pi].
  - intros j Nj. rewrite (get_pruned _ _ _ _ P Nj), get_set. destruct (Z.eqb_spec j k); congruence.
Qed.
Print Assumptions last_close_frees.

(* and nothing nameless is left that no one holds, while nothing fails half-way *)
Theorem no_leftovers : forall s k i, clean s -> get s k = Some i -> k <> INO_ROOT -> names s k = 0 ->
  0 < i_nopen i \/ i_pin i = true.
Proof.
  intros s k i C. revert k i. change (tidy s). induction C as [|s op o u o' s' C IH Lg E|s op o e o' C IH Lg E].
  - intros k i. unfold ns_root. cbn [get]. destruct (Z.eqb_spec INO_ROOT k); [congruence|discriminate].
  - pose proof (op_outcome op s (hist_inv _ (clean_hist _ C)) Lg o) as X. rewrite E in X. exact (proj2 (proj2 X) IH).
  - exact IH.
Qed.
Print Assumptions no_leftovers.

(* once gone it stays gone: the number returns only when a new file is made under it *)
Theorem gone_until_made_anew : forall s op o u o' s' k, get s k = None -> run_op op o s = Ok u o' s' ->
  (exists i, get s' k = Some i) ->
  match op with NCreate _ _ j _ | NMknod _ _ j | NSymlink _ _ j | NMkdir _ _ j => j = k | _ => False end.
Proof.
  intros s op o u o' s' k G E [i G']. pose proof (op_grows op s o) as X. rewrite E in X.
  destruct (X k i G') as [[a Ga]|Y]; [congruence|exact Y].
Qed.
Print Assumptions gone_until_made_anew.

Definition ex2 : ns := exec (NUnlink INO_ROOT F_) [] (exec (NOpen 2) [] (exec (NCreate INO_ROOT F_ 2 false) [] ns_root)).
Example ex2_clean : clean ex2.
Proof. unfold ex2. run_hist. Qed.
Example open_file_stays_example : names ex2 2 = 0 /\ option_map i_nopen (get ex2 2) = Some 1 /\
  okb (NOpen 2) [] ex2 = true /\ okb (NRelease 2) [] ex2 = true /\ get (exec (NRelease 2) [] ex2) 2 = None.
Proof. vm_compute. auto. Qed.
Example open_file_survives_example : exists s', run_from 2 (exec (NOpen 2) [] ex2) 1 s'.
Proof. eexists. eapply rf_release with (o := []) (h := 0); [apply rf_here|]. vm_compute. reflexivity. Qed.
Example no_leftovers_example : clean (exec (NForget 2) [] ex2) /\ names (exec (NForget 2) [] ex2) 2 = 0.
Proof. split; [|reflexivity]. unfold ex2. run_hist. Qed.

(* "exactly once after the last handle" is false when the flush that a close starts with fails:
   the kernel never repeats a close, the count stays up, and the file stays for good *)
Theorem storage_freed_after_failed_close_refuted : exists s o e o' s',
  clean s /\ names s 2 = 0 /\ option_map i_nopen (get s 2) = Some 1 /\ run_op (NRelease 2) o s = Er e o' s' /\
  hist s' /\
  (* no handle is left, so no further close; whatever else happens the file is still there *)
  forall s'', run_from 2 s' 0 s'' -> exists i, get s'' 2 = Some i.
Proof.
  exists ex2. exists [false; true]. eexists _, _, _. split; [exact ex2_clean|]. split; [reflexivity|]. split; [reflexivity|].
  split; [vm_compute; reflexivity|].
  match goal with |- hist ?x /\ _ => assert (H : hist x) end.
  { apply hist_er with (s := ex2) (op := NRelease 2) (o := [false; true]) (e := EFAIL) (o' := []);
    [apply clean_hist; exact ex2_clean|exact Logic.I|vm_compute; reflexivity|exact Logic.I]. }
  split; [exact H|]. intros s'' R. destruct (open_file_survives 2 _ _ _ (mkIno false 0 0 1 false [] false) H R) as [i [Gi _]]; eauto.
  reflexivity.
Qed.
Print Assumptions storage_freed_after_failed_close_refuted.

(* ---- C45 ---- *)
(* what the inode verifier accepts on the next load: verify_inode_head, lib/inode.c:1419-1449 *)
Definition loadable (i : inode) : Prop := i_nlink i <= LINK_MAX.
Definition lim (s : ns) : Prop := forall k i, get s k = Some i -> i_dir i = false -> names s k <= LINK_MAX.
Lemma lim_removed : forall d n k s s', removed d n k s s' -> lim s -> lim s'.
Proof.
  intros d n k s s' R L j i G D. destruct (alike_removed _ _ _ _ _ R _ _ G) as [a [Ga [X _]]].
  rewrite (names_removed _ _ _ _ _ _ R). assert (names s j <= LINK_MAX) by (apply (L j a Ga); congruence). destruct (k =? j); lia.
Qed.
Lemma lim_added : forall d n k s s', added d n k s s' -> names s k < LINK_MAX -> lim s -> lim s'.
Proof.
  intros d n k s s' A N L j i G D. destruct (alike_added _ _ _ _ _ A _ _ G) as [a [Ga [X _]]].
  rewrite (names_added _ _ _ _ _ _ A). assert (names s j <= LINK_MAX) by (apply (L j a Ga); congruence).
  destruct (Z.eqb_spec k j) as [->|]; lia.
Qed.
Lemma lim_same : forall s s', (forall j, names s' j = names s j) -> grows (fun _ => False) s s' -> (forall j a b, get s j = Some a -> get s' j = Some b -> i_dir b = i_dir a) -> lim s -> lim s'.
Proof.
  intros s s' N Gr D L j i G Di. destruct (Gr _ _ G) as [[a Ga]|[]]. rewrite N. apply (L j a Ga). rewrite <- (D _ _ _ Ga G). exact Di.
Qed.
Lemma lim_pruned : forall k s s', inv [] s -> pruned k s s' -> lim s -> lim s'.
Proof.
  intros k s s' I P. apply lim_same.
  - intros j. eapply names_pruned; eauto.
  - intros j i G. left. destruct (Z.eq_dec j k) as [->|N]; [|rewrite (get_pruned _ _ _ _ P N) in G; eauto].
    destruct P as [->|[a [Ga _]]]; eauto.
  - intros j a b Ga Gb. destruct (Z.eq_dec j k) as [->|N]; [|rewrite (get_pruned _ _ _ _ P N) in Gb; congruence].
    destruct P as [->|[i [G [_ [_ [_ [->| ->]]]]]]]; [congruence|..].
    + rewrite get_set, Z.eqb_refl, G in Gb. injection Gb as <-. cbn. congruence.
    + rewrite get_del, Z.eqb_refl in Gb. discriminate.
Qed.
Lemma lim_set : forall s k i i', get s k = Some i -> i_dir i' = i_dir i -> i_ents i' = i_ents i -> lim s -> lim (set s k i').
Proof.
  intros s k i i' G D E. apply lim_same.
  - intros j. rewrite (names_set _ _ _ _ _ G), E. lia.
  - apply grows_set.
  - intros j a b Ga Gb. rewrite get_set, G in Gb. destruct (Z.eqb_spec j k) as [->|]; congruence.
Qed.
Lemma lim_field : forall s k f, (forall i, i_dir (f i) = i_dir i /\ i_ents (f i) = i_ents i) -> lim s ->
  lim (match get s k with Some i => set s k (f i) | None => s end).
Proof.
  intros s k f H L. destruct (get s k) as [i|] eqn:G; [|exact L]. destruct (H i). eapply lim_set; eauto.
Qed.
Notation keeps_lim m s := (wp m (fun _ s' => lim s') (fun _ s' => lim s') s).
Lemma wp_stays_lim {A} (m : M A) P s : lim s -> wp m P (stays s) s -> wp m P (fun _ s' => lim s') s.
Proof. intros L H. eapply wp_conseq; [exact H|auto|]. intros e s' ->. exact L. Qed.
Lemma name_it_lim : forall s d n k dir p s1, inv [] s -> lim s -> (exists di, get s d = Some di /\ i_dir di = true /\ 2 <= i_nlink di) ->
  spawned s k dir p s1 -> keeps_lim (do_add_dentry d n k true) s1.
Proof.
  intros s d n k dir p s1 I L [di [Gd _]] [Gk E1].
  destruct (inv_spawn [] s k dir p I Gk) as [_ N1].
  assert (Ns : forall j, names s1 j = names s j) by (intros; rewrite E1, names_cons; cbn; lia).
  assert (L1 : lim s1).
  { intros j i G D. rewrite Ns. rewrite E1 in G. cbn [get] in G. destruct (Z.eqb_spec k j) as [->|]; [rewrite N1; unfold LINK_MAX; lia|eauto]. }
  assert (Nd : d <> k) by congruence.
  eapply wp_conseq; [eapply wp_do_add_dentry_t with (di := di)|..]; cbv beta.
  - rewrite E1. cbn [get]. destruct (Z.eqb_spec k d); [congruence|exact Gd].
  - rewrite E1. cbn [get]. rewrite Z.eqb_refl. reflexivity.
  - intros [] s' A. eapply lim_added; [exact A| |exact L1]. rewrite Ns, N1. unfold LINK_MAX. lia.
  - intros e s' [->| ->]; [exact L1|]. intros j i G D. rewrite get_del in G. destruct (Z.eqb_spec j k); [discriminate|].
    rewrite names_del; [eauto| |].
    + rewrite E1. cbn [map fst]. destruct (inv_spawn [] s k dir p I Gk) as [I1 _]. exact (inv_keys _ _ I1).
    + intros a. rewrite E1. cbn [get]. rewrite Z.eqb_refl. intros [= <-]. reflexivity.
Qed.
Lemma spawned_lim : forall s k dir p s1, inv [] s -> lim s -> spawned s k dir p s1 -> lim s1.
Proof.
  intros s k dir p s1 I L [Gk E1] j i G D. destruct (inv_spawn [] s k dir p I Gk) as [_ N1]. rewrite E1 in *. rewrite names_cons. cbn [i_ents].
  change (cnt j []) with 0. cbn [get] in G. destruct (Z.eqb_spec k j) as [->|]; [rewrite N1; unfold LINK_MAX; lia|]. specialize (L j i G D). lia.
Qed.
Lemma unname_lim : forall d n k i s, inv [] s -> lim s -> entry s d n = Some k -> get s k = Some i -> i_ents i = [] ->
  keeps_lim (remove_dentry d n;; try_prune k) s.
Proof.
  intros d n k i s I L En Gk He.
  apply wp_bind with (P := fun _ s1 => removed d n k s s1).
  - eapply wp_conseq; [apply (wp_remove_entry _ _ _ _ _ I En)|..]; cbv beta; [auto|].
    intros e s' [_ [->|R]]; [exact L|eapply lim_removed; eauto].
  - intros [] s1 R. pose proof (lim_removed _ _ _ _ _ R L) as L1.
    assert (I1 : inv [] s1).
    { apply inv_settle with (k := k); [eapply inv_removed; eauto|]. intros a Ga. right.
      pose proof (get_removed _ _ _ _ _ k R) as X. rewrite Gk in X. destruct X as [i' [G' [_ X]]].
      assert (i' = a) by congruence. subst i'. destruct (Z.eq_dec k d) as [->|Nd]; [|rewrite X; auto].
      exfalso. unfold entry in En. rewrite Gk, He in En. discriminate. }
    eapply wp_conseq; [apply wp_try_prune|..]; cbv beta.
    + intros [] s' [P _]. eapply lim_pruned; eauto.
    + intros e s' [_ P]. eapply lim_pruned; eauto.
Qed.
Lemma prune_lim : forall k s, inv [] s -> lim s -> keeps_lim (try_prune k) s.
Proof.
  intros k s I L. eapply wp_conseq; [apply wp_try_prune|..]; cbv beta.
  - intros [] s' [P _]. eapply lim_pruned; eauto.
  - intros e s' [_ P]. eapply lim_pruned; eauto.
Qed.
Lemma link_lim : forall d n k s, inv [] s -> lim s -> keeps_lim (link d n k) s.
Proof.
  intros d n k s I L. unfold link.
  eapply wp_bind; [apply wp_stays_lim; [exact L|apply wp_stage]|]. intros i s' [-> Gk].
  eapply wp_bind; [apply wp_stays_lim; [exact L|apply wp_check_dir_waccess]|]. intros [] s' [-> Dd].
  apply wp_bind with (P := fun _ s' => s' = s /\ i_dir i = false).
  { apply wp_require; [|auto]. intros H. apply negb_true_iff in H. auto. }
  intros [] s' [-> Di].
  eapply wp_bind; [apply wp_stays_lim; [exact L|apply wp_check_nodent]|]. intros [] s' [-> En].
  apply wp_bind with (P := fun _ s' => s' = s /\ i_nlink i < LINK_MAX).
  { apply wp_require; [|auto]. intros H. apply Z.ltb_lt in H. auto. }
  intros [] s' [-> Ln].
  assert (Gd : exists di, get s d = Some di) by (unfold isdir in Dd; destruct (get s d); [eauto|discriminate]).
  destruct Gd as [di Gd].
  eapply wp_conseq; [eapply wp_do_add_dentry_f; eassumption|..]; cbv beta.
  - intros [] s' A. eapply lim_added; [exact A| |exact L]. pose proof (inv_links _ _ I _ _ Gk) as X. rewrite Di in X. lia.
  - intros e s' [_ ->]. exact L.
Qed.
Lemma rename_lim_ok : forall d n d' n' f s s', inv [] s -> lim s -> ren_ok d n d' n' f s s' ->
  (entry s d n = entry s d' n' -> entry s d n = None) -> lim s'.
Proof.
  intros d n d' n' f s s' I L [k [En H]] Lg.
  assert (Lm : forall d n k s s1 d1 s2, lim s -> (exists i, get s k = Some i) -> removed d n k s s1 -> forall m, added d1 m k s1 s2 -> lim s2).
  { intros d0 n0 k0 a b d1 c La _ R m A j i G D.
    destruct (alike_added _ _ _ _ _ A _ _ G) as [x [Gx [Dx _]]]. destruct (alike_removed _ _ _ _ _ R _ _ Gx) as [y [Gy [Dy _]]].
    rewrite (names_added _ _ _ _ _ _ A), (names_removed _ _ _ _ _ _ R). assert (names a j <= LINK_MAX) by (apply (La j y Gy); congruence). lia. }
  destruct (entry s d' n') as [k'|] eqn:En'.
  - destruct (Z.eqb_spec k k') as [->|Nk]; [rewrite En in Lg; specialize (Lg eq_refl); discriminate|].
    destruct (rf_exchange f).
    + destruct H as [s1 [s2 [s3 [R1 [R2 [A3 A4]]]]]]. intros j i G D.
      destruct (alike_added _ _ _ _ _ A4 _ _ G) as [a [Ga [Da _]]]. destruct (alike_added _ _ _ _ _ A3 _ _ Ga) as [b [Gb [Db _]]].
      destruct (alike_removed _ _ _ _ _ R2 _ _ Gb) as [c [Gc [Dc _]]]. destruct (alike_removed _ _ _ _ _ R1 _ _ Gc) as [e [Ge [De _]]].
      rewrite (names_added _ _ _ _ _ _ A4), (names_added _ _ _ _ _ _ A3), (names_removed _ _ _ _ _ _ R2), (names_removed _ _ _ _ _ _ R1).
      assert (names s j <= LINK_MAX) by (apply (L j e Ge); congruence). lia.
    + destruct H as [Hr [s1 [s2 [s3 [R1 [W2 [R3 A4]]]]]]].
      assert (Gk' : exists i', get s k' = Some i') by (destruct R1 as [? [ci [_ [_ [G _]]]]]; eauto). destruct Gk' as [i' Gk'].
      assert (Nd' : d' <> k') by (intros ->; unfold entry in En'; rewrite Gk', (Hr _ Gk') in En'; discriminate).
      assert (I1 : inv [] s1).
      { apply inv_settle with (k := k'); [eapply inv_removed; eauto|]. intros a Ga. right. pose proof (get_removed _ _ _ _ _ k' R1) as X. rewrite Gk' in X.
        destruct X as [i1 [G1 [_ X]]]. assert (i1 = a) by congruence. subst. rewrite X by congruence. exact (Hr _ Gk'). }
      eapply Lm; [|  |exact R3|exact A4]; [eapply lim_pruned; [exact I1|exact (proj1 W2)|eapply lim_removed; eauto]|].
      destruct R3 as [? [ci [_ [_ [G _]]]]]. eauto.
  - destruct H as [s1 [_ [R1 A2]]]. eapply Lm; [exact L| |exact R1|exact A2]. destruct R1 as [? [ci [_ [_ [G _]]]]]. eauto.
Qed.
Lemma rename_lim_er : forall d n d' n' f s s', inv [] s -> lim s -> ren_er d n d' n' f s s' ->
  (forall k, entry s d n = Some k \/ entry s d' n' = Some k -> isdir s k = false) -> lim s'.
Proof.
  intros d n d' n' f s s' I L [k [En H]] Hf.
  pose proof (Hf k (or_introl En)) as Fk.
  assert (R0 : forall d n k s s', inv [] s -> isdir s k = false -> removed d n k s s' -> inv [] s').
  { intros d0 n0 k0 a b Ia Fa R. apply inv_settle_file with (k := k0); [eapply inv_removed; eauto|].
    rewrite (isdir_removed _ _ _ _ _ _ R). exact Fa. }
  destruct (entry s d' n') as [k'|] eqn:En'; [|eapply lim_removed; eauto].
  pose proof (Hf k' (or_intror eq_refl)) as Fk'.
  destruct (k =? k') eqn:K; [|destruct (rf_exchange f)].
  - destruct H as [s1 [R P]]. eapply lim_pruned; [exact (R0 _ _ _ _ _ I Fk R)|exact P|eapply lim_removed; eauto].
  - destruct H as [s1 [R1 H]]. pose proof (lim_removed _ _ _ _ _ R1 L) as L1. destruct H as [->|[s2 [R2 H]]]; [exact L1|].
    pose proof (lim_removed _ _ _ _ _ R2 L1) as L2. destruct H as [->|A]; [exact L2|].
    eapply lim_added; [exact A| |exact L2]. rewrite (names_removed _ _ _ _ _ _ R2), (names_removed _ _ _ _ _ _ R1), Z.eqb_refl.
    destruct (dir_of_entry _ _ _ _ _ I En) as [_ [i Gi]]. unfold isdir in Fk. rewrite Gi in Fk. specialize (L _ _ Gi Fk). destruct (k' =? k); lia.
  - destruct H as [_ [s1 [R1 H]]]. pose proof (lim_removed _ _ _ _ _ R1 L) as L1. destruct H as [->|[s2 [P H]]]; [exact L1|].
    pose proof (lim_pruned _ _ _ (R0 _ _ _ _ _ I Fk' R1) P L1) as L2. destruct H as [->|R3]; [exact L2|eapply lim_removed; eauto].
Qed.
Lemma op_lim : forall op s, inv [] s -> lim s -> legal s op -> forall o,
  match run_op op o s with
  | Ok _ _ s' => lim s' | Er _ _ s' => mild s op s' -> lim s' | Abort => True
  end.
Proof.
  intros op s I L Lg o.
  assert (W : forall (m : M unit), keeps_lim m s ->
     match m o s with Ok _ _ s' => lim s' | Er e _ s' => mild s op s' -> lim s' | Abort => True end).
  { intros m H. specialize (H o). destruct (m o s) as [a o' s'|e o' s'|]; auto. }
  destruct op; cbn [run_op].
  - apply W. unfold create.
    eapply wp_bind; [apply wp_stays_lim; [exact L|apply wp_check_dir_can_add]|]. intros [] s' [-> [En Hd]].
    apply wp_bind with (P := fun _ s' => s' = s); [apply wp_may_fail; auto|]. intros [] s' ->.
    eapply wp_bind; [apply wp_stays_lim; [exact L|apply wp_spawn]|]. intros [] s1 Sp. cbv beta in Sp.
    eapply wp_bind; [exact (name_it_lim _ _ _ _ _ _ _ I L Hd Sp)|]. intros [] s' L'. destruct opened; [|apply wp_ret; exact L'].
    apply wp_update. apply lim_field with (f := fun i => with_nopen i (i_nopen i + 1)); [auto|exact L'].
  - apply W. unfold mknod.
    eapply wp_bind; [apply wp_stays_lim; [exact L|apply wp_check_dir_can_add]|]. intros [] s' [-> [En Hd]].
    apply wp_bind with (P := fun _ s' => s' = s); [apply wp_may_fail; auto|]. intros [] s' ->.
    eapply wp_bind; [apply wp_stays_lim; [exact L|apply wp_spawn]|]. intros [] s1 Sp. cbv beta in Sp.
    eapply wp_bind; [exact (name_it_lim _ _ _ _ _ _ _ I L Hd Sp)|]. intros [] s' L'.
    apply wp_update. apply lim_field with (f := fun i => with_pin i true); [auto|exact L'].
  - apply W. unfold symlink.
    eapply wp_bind; [apply wp_stays_lim; [exact L|apply wp_check_dir_can_add]|]. intros [] s' [-> [En Hd]].
    apply wp_bind with (P := fun _ s' => s' = s); [apply wp_may_fail; auto|]. intros [] s' ->.
    eapply wp_bind; [apply wp_stays_lim; [exact L|apply wp_spawn]|]. intros [] s1 Sp. cbv beta in Sp.
    pose proof (spawned_lim _ _ _ _ _ I L Sp) as L1.
    apply wp_bind with (P := fun _ s' => s' = s1); [|intros [] s' ->; exact (name_it_lim _ _ _ _ _ _ _ I L Hd Sp)].
    apply wp_bind with (P := fun _ s' => s' = s1); [apply wp_draw; auto|]. intros b s' ->. destruct b; [|apply wp_ret; auto].
    assert (L2 : lim (del s1 k)).
    { intros j i G D. rewrite get_del in G. destruct (Z.eqb_spec j k); [discriminate|]. destruct Sp as [Gk E1].
      destruct (inv_spawn [] s k false d I Gk) as [I1 _]. rewrite <- E1 in I1.
      rewrite names_del; [exact (L1 j i G D)|exact (inv_keys _ _ I1)|]. intros a. rewrite E1. cbn [get]. rewrite Z.eqb_refl. intros [= <-]. reflexivity. }
    intros o0. unfold remove_inode, may_fail, bind, draw, ret, fail, update. destruct o0 as [|[] o0]; auto.
  - apply W. unfold mkdir.
    eapply wp_bind; [apply wp_stays_lim; [exact L|apply wp_check_dir_can_add]|]. intros [] s' [-> [En Hd]].
    eapply wp_bind; [apply wp_stays_lim; [exact L|apply wp_stage]|]. intros di s' [-> Gd].
    apply wp_bind with (P := fun _ s' => s' = s); [apply wp_require; auto|]. intros [] s' ->.
    eapply wp_bind; [apply wp_stays_lim; [exact L|apply wp_spawn]|]. intros [] s1 Sp. cbv beta in Sp.
    exact (name_it_lim _ _ _ _ _ _ _ I L Hd Sp).
  - apply W. apply link_lim; assumption.
  - apply W. unfold unlink.
    eapply wp_bind; [apply wp_stays_lim; [exact L|apply wp_check_dir_waccess]|]. intros [] s' [-> Dd].
    eapply wp_bind; [apply wp_stays_lim; [exact L|apply wp_stage_by_name]|]. intros [k i] s' [-> [En [_ Gk]]]. cbn [fst snd] in *.
    apply wp_bind with (P := fun _ s' => s' = s); [apply wp_may_fail; auto|]. intros [] s' ->.
    apply wp_bind with (P := fun _ s' => s' = s /\ i_dir i = false).
    { apply wp_require; [|auto]. intros H. apply negb_true_iff in H. auto. }
    intros [] s' [-> Di]. eapply unname_lim; eauto. eapply inv_file; eauto.
  - apply W. unfold rmdir.
    eapply wp_bind; [apply wp_stays_lim; [exact L|apply wp_check_dir_waccess]|]. intros [] s' [-> Dd].
    eapply wp_bind; [apply wp_stays_lim; [exact L|apply wp_stage_by_name]|]. intros [k i] s' [-> [En [_ Gk]]]. cbn [fst snd] in *.
    eapply wp_bind; [apply wp_stays_lim; [exact L|apply wp_check_rmdir_child]|]. intros [] s' [-> [Di [He Kr]]].
    eapply unname_lim; eauto.
  - pose proof (wp_rename d n d' n' f s I o) as H. destruct (rename d n d' n' f o s) as [a o' s'|e o' s'|]; [|..|exact Logic.I].
    + eapply rename_lim_ok; eauto.
    + intros M. destruct H as [->|[_ H]]; [exact L|]. destruct M as [->|M]; [exact L|]. eapply rename_lim_er; eauto.
  - apply W. unfold open. eapply wp_bind; [apply wp_stays_lim; [exact L|apply wp_stage]|]. intros i s' [-> Gk].
    apply wp_bind with (P := fun _ s' => s' = s); [apply wp_may_fail; auto|]. intros [] s' ->.
    apply wp_update. apply lim_field with (f := fun i => with_nopen i (i_nopen i + 1)); [auto|exact L].
  - apply W. unfold release. eapply wp_bind; [apply wp_stays_lim; [exact L|apply wp_stage]|]. intros i s' [-> Gk].
    apply wp_bind with (P := fun _ s' => s' = s /\ i_nopen i <> 0).
    { apply wp_require; [|auto]. intros H. split; [reflexivity|]. intros X. rewrite X in H. discriminate. }
    intros [] s' [-> No].
    apply wp_bind with (P := fun _ s' => s' = s); [apply wp_may_fail; auto|]. intros [] s' ->.
    apply wp_bind with (P := fun _ s' => s' = set s k (with_nopen i (i_nopen i - 1))); [apply wp_update; rewrite Gk; reflexivity|].
    intros [] s' ->. pose proof (inv_open _ _ I _ _ Gk). apply prune_lim; [|eapply lim_set; eauto].
    apply inv_set with (i := i); auto. cbn. lia.
  - apply W. unfold forget. apply wp_bind with (P := fun a s' => a = s /\ s' = s); [apply wp_state; auto|]. intros a s' [-> ->].
    destruct (get s k) as [i|] eqn:Gk; [|apply wp_ret; exact L]. destruct (i_pin i); [|apply wp_ret; exact L].
    apply wp_bind with (P := fun _ s' => s' = set s k (with_pin i false)); [apply wp_update; reflexivity|].
    intros [] s' ->. pose proof (inv_open _ _ I _ _ Gk). apply prune_lim; [|eapply lim_set; eauto].
    apply inv_set with (i := i); auto.
Qed.
Theorem file_links_within_limit : forall s k i, hist s -> get s k = Some i -> i_dir i = false -> loadable i.
Proof.
  intros s k i H G D. unfold loadable. pose proof (hist_inv _ H) as I. pose proof (inv_links _ _ I _ _ G) as X. rewrite D in X. rewrite X.
  assert (L : lim s); [|eauto]. clear - H. induction H as [|s op o u o' s' H IH Lg E|s op o e o' s' H IH Lg E M].
  - intros k i _ _. unfold ns_root, names, LINK_MAX. cbn. lia.
  - pose proof (op_lim op s (hist_inv _ H) IH Lg o) as X. rewrite E in X. exact X.
  - pose proof (op_lim op s (hist_inv _ H) IH Lg o) as X. rewrite E in X. auto.
Qed.
Print Assumptions file_links_within_limit.
Example file_links_within_limit_example : option_map i_nlink (get ex1 4) = Some 2.
Proof. reflexivity. Qed.

(* a directory can be pushed over the limit by rename, which never looks at it *)
Lemma bind_ok {A B} (m : M A) (f : A -> M B) o s a o' s' : m o s = Ok a o' s' -> bind m f o s = f a o' s'.
Proof. intros H. unfold bind. rewrite H. reflexivity. Qed.
Lemma mkdir_runs : forall s d n k di, get s d = Some di -> i_dir di = true -> ent_of (i_ents di) n = None ->
  zlen (i_ents di) < DIR_ENTRIES_MAX -> 2 <= i_nlink di < LINK_MAX -> get s k = None -> k <> INO_NULL ->
  mkdir d n k [] s = Ok tt [] (change ((k, mkIno true 1 d 0 false [] false) :: s) d k 1 (fun l => l ++ [(n, k)])).
Proof.
  intros s d n k di Gd D E Hz [Hl1 Hl2] Gk Nk.
  assert (S : stage d [] s = Ok di [] s) by (unfold stage, bind, may_fail, draw, ret, state; cbn; rewrite Gd; reflexivity).
  assert (W : check_dir_waccess d [] s = Ok tt [] s) by (unfold check_dir_waccess, bind; rewrite S, D; reflexivity).
  assert (N : check_nodent d n [] s = Ok tt [] s).
  { unfold check_nodent, lookup_by_name, bind. rewrite S, D. cbn. rewrite E. reflexivity. }
  assert (C : check_add_dentry d [] s = Ok tt [] s).
  { unfold check_add_dentry, bind. rewrite S, D. cbn [require ret may_fail bind draw].
    unfold require. apply Z.ltb_lt in Hz. rewrite Hz. apply Z.leb_le in Hl1. unfold may_fail, bind, draw, ret. rewrite Hl1. reflexivity. }
  unfold mkdir, check_dir_can_add, check_nomlink. unfold bind at 1 2 3. rewrite W, N, C. unfold bind at 1. rewrite S.
  apply Z.ltb_lt in Hl2. unfold bind at 1, require. rewrite Hl2. unfold ret.
  unfold bind at 1, spawn, may_fail, bind, draw, ret, state. rewrite Gk. apply Z.eqb_neq in Nk. rewrite Nk.
  unfold update, do_add_dentry. rewrite add_dentry_cases. reflexivity.
Qed.
Lemma move_runs : forall s d n k d' n' di ci di', get s d = Some di -> i_dir di = true -> ent_of (i_ents di) n = Some k ->
  get s k = Some ci -> get s d' = Some di' -> i_dir di' = true -> ent_of (i_ents di') n' = None ->
  zlen (i_ents di') < DIR_ENTRIES_MAX -> 2 <= i_nlink di' ->
  exists s1, removed d n k s s1 /\ rename d n d' n' plain [] s = Ok tt [] (change s1 d' k 1 (fun l => l ++ [(n', k)])).
Proof.
  intros s d n k d' n' di ci di' Gd D E Gk Gd' D' E' Hz Hl.
  assert (S : forall s j i, get s j = Some i -> stage j [] s = Ok i [] s).
  { intros a j i G. unfold stage, bind, may_fail, draw, ret, state. cbn. rewrite G. reflexivity. }
  assert (W : forall j i, get s j = Some i -> i_dir i = true -> check_dir_waccess j [] s = Ok tt [] s).
  { intros j i G Di. unfold check_dir_waccess, bind. rewrite (S _ _ _ G), Di. reflexivity. }
  assert (L : lookup_by_name d n [] s = Ok k [] s).
  { unfold lookup_by_name, bind. rewrite (S _ _ _ Gd), D. cbn. rewrite E. reflexivity. }
  assert (L' : lookup_by_name d' n' [] s = Er ENOENT [] s).
  { unfold lookup_by_name, bind. rewrite (S _ _ _ Gd'), D'. cbn. rewrite E'. reflexivity. }
  assert (C : check_add_dentry d' [] s = Ok tt [] s).
  { unfold check_add_dentry, bind. rewrite (S _ _ _ Gd'), D'. cbn [require ret may_fail bind draw].
    unfold require. apply Z.ltb_lt in Hz. rewrite Hz. apply Z.leb_le in Hl. unfold may_fail, bind, draw, ret. rewrite Hl. reflexivity. }
  assert (R : remove_dentry d n [] s = Ok tt [] (change s d k (-1) (fun l => ent_del l n))).
  { unfold remove_dentry. unfold bind at 1. rewrite L. unfold bind at 1. rewrite (S _ _ _ Gk).
    unfold bind at 1, update. unfold bind at 1. rewrite update_nlink_eq. unfold bind at 1, state.
    match goal with |- match get ?x d with _ => _ end [] _ = _ => change x with (change s d k (-1) (fun l => ent_del l n)) end.
    destruct (get (change s d k (-1) (fun l => ent_del l n)) d) as [a|]; [destruct (i_ents a)|]; reflexivity. }
  exists (change s d k (-1) (fun l => ent_del l n)). split; [exists di, ci; auto|].
  assert (P : stage_by_name d n [] s = Ok (k, ci) [] s).
  { unfold stage_by_name. rewrite (bind_ok _ _ _ _ _ _ _ L), (bind_ok _ _ _ _ _ _ _ (S _ _ _ Gk)). reflexivity. }
  assert (P' : stage_by_name d' n' [] s = Er ENOENT [] s).
  { unfold stage_by_name. unfold bind at 1. rewrite L'. reflexivity. }
  assert (T : stage_rename_at d n false [] s = Ok (Some (k, ci)) [] s).
  { unfold stage_rename_at. rewrite (bind_ok _ _ _ _ _ _ _ (W _ _ Gd D)), P. reflexivity. }
  assert (T' : stage_rename_at d' n' true [] s = Ok None [] s).
  { unfold stage_rename_at. rewrite (bind_ok _ _ _ _ _ _ _ (W _ _ Gd' D')), P'. reflexivity. }
  assert (Q : check_rename d d' k ci None plain [] s = Ok tt [] s) by reflexivity.
  unfold rename. rewrite (bind_ok _ _ _ _ _ _ _ T), (bind_ok _ _ _ _ _ _ _ T'), (bind_ok _ _ _ _ _ _ _ Q).
  unfold rename_specific, rename_move. rewrite (bind_ok _ _ _ _ _ _ _ C), (bind_ok _ _ _ _ _ _ _ R).
  unfold do_add_dentry. rewrite add_dentry_cases. reflexivity.
Qed.
Definition nm (j : Z) : name := [100; 48 + j / 200; 48 + j mod 200].
Lemma nm_inj : forall i j, nm i = nm j -> i = j.
Proof. unfold nm. intros i j H.
  assert (H1 : 48 + i / 200 = 48 + j / 200) by congruence. assert (H2 : 48 + i mod 200 = 48 + j mod 200) by congruence. lia. Qed.
Lemma crowded : forall m, Z.of_nat m <= 32764 -> exists s i a, clean s /\ get s INO_ROOT = Some i /\ i_dir i = true /\ i_nlink i = 3 + Z.of_nat m /\
  zlen (i_ents i) = 1 + Z.of_nat m /\ get s 2 = Some a /\ i_dir a = true /\ ent_of (i_ents a) B_ = Some 3 /\ (exists c, get s 3 = Some c /\ i_dir c = true) /\
  (forall j, 4 + Z.of_nat m <= j -> get s j = None) /\
  (forall n k, In (n, k) (i_ents i) -> n = A_ \/ exists j, 0 <= j < Z.of_nat m /\ n = nm j).
Proof.
  induction m as [|m IH]; intros Hm.
  - exists (exec (NMkdir 2 B_ 3) [] (exec (NMkdir INO_ROOT A_ 2) [] ns_root)). eexists _, _.
    split; [run_hist|]. split; [reflexivity|]. split; [reflexivity|]. split; [reflexivity|]. split; [reflexivity|]. split; [reflexivity|].
    split; [reflexivity|]. split; [reflexivity|]. split; [eexists; split; reflexivity|]. split.
    + intros j Hj. match goal with |- get ?x j = None => let y := eval vm_compute in x in change x with y end. cbn [get].
      repeat match goal with |- (if ?a =? j then _ else _) = None => destruct (Z.eqb_spec a j); [lia|] end. reflexivity.
    + intros n k [H|[]]. injection H as <- <-. auto.
  - destruct IH as [s [i [a [C [Gr [Dr [Lr [Zr [Ga [Da [Ea [[c [Gc Dc]] [Nf Nm]]]]]]]]]]]]]; [lia|].
    set (k := 4 + Z.of_nat m) in *. assert (Gk : get s k = None) by (apply Nf; lia).
    assert (En : ent_of (i_ents i) (nm (Z.of_nat m)) = None).
    { destruct (ent_of (i_ents i) (nm (Z.of_nat m))) as [x|] eqn:X; [|reflexivity]. apply ent_of_in in X.
      destruct (Nm _ _ X) as [Y|[j [Hj Y]]]; [discriminate|]. apply nm_inj in Y. lia. }
    pose proof (mkdir_runs s INO_ROOT (nm (Z.of_nat m)) k i Gr Dr En) as R.
    assert (H1 : zlen (i_ents i) < DIR_ENTRIES_MAX) by (rewrite Zr; unfold DIR_ENTRIES_MAX; lia).
    assert (H2 : 2 <= i_nlink i < LINK_MAX) by (rewrite Lr; unfold LINK_MAX; lia).
    assert (H3 : k <> INO_NULL) by (unfold INO_NULL, k; lia).
    specialize (R H1 H2 Gk H3). clear H1 H2 H3.
    set (s1 := (k, mkIno true 1 INO_ROOT 0 false [] false) :: s) in *.
    assert (G1 : forall j x, get s j = Some x -> get s1 j = Some x).
    { intros j x Gj. unfold s1. cbn [get]. destruct (Z.eqb_spec k j) as [<-|]; congruence. }
    assert (Gk1 : get s1 k = Some (mkIno true 1 INO_ROOT 0 false [] false)) by (unfold s1; cbn [get]; rewrite Z.eqb_refl; reflexivity).
    set (s2 := change s1 INO_ROOT k 1 (fun l => l ++ [(nm (Z.of_nat m), k)])) in *.
    assert (G2 : forall j x, get s1 j = Some x -> exists p, get s2 j = Some (mkIno (i_dir x) (i_nlink x + (if j =? k then 1 else 0) + (if j =? INO_ROOT then 1 else 0)) p
       (i_nopen x) (i_pin x) (if j =? INO_ROOT then i_ents x ++ [(nm (Z.of_nat m), k)] else i_ents x) (i_lost x))).
    { intros j x Gj. destruct (change_get s1 INO_ROOT k 1 (fun l => l ++ [(nm (Z.of_nat m), k)]) j _ _ (G1 _ _ Gr) Gk1) as [p E]. rewrite Gj in E.
      exists p. unfold s2. rewrite E. cbn [i_dir]. rewrite andb_true_r. reflexivity. }
    destruct (G2 _ _ (G1 _ _ Gr)) as [p0 Q0]. destruct (G2 _ _ (G1 _ _ Ga)) as [p1 Q1]. destruct (G2 _ _ (G1 _ _ Gc)) as [p2 Q2].
    rewrite Z.eqb_refl in Q0. assert (Kr : INO_ROOT =? k = false) by (apply Z.eqb_neq; unfold INO_ROOT, k; lia). rewrite Kr in Q0.
    eexists s2, _, _. split; [eapply clean_ok with (op := NMkdir INO_ROOT (nm (Z.of_nat m)) k) (o := []); [exact C|exact Logic.I|exact R]|].
    split; [exact Q0|]. split; [exact Dr|]. split; [cbn [i_nlink]; lia|]. split.
    { cbn [i_ents]. rewrite zlen_app, Zr, zlen_cons. change (zlen (@nil (name * Z))) with 0. lia. }
    split; [exact Q1|]. split; [exact Da|]. split; [exact Ea|]. split; [eexists; split; [exact Q2|exact Dc]|]. split.
    + intros j Hj. destruct (get s2 j) as [x|] eqn:Gx; [|reflexivity]. exfalso.
      destruct (change_get s1 INO_ROOT k 1 (fun l => l ++ [(nm (Z.of_nat m), k)]) j _ _ (G1 _ _ Gr) Gk1) as [p E]. fold s2 in E. rewrite Gx in E.
      destruct (get s1 j) as [y|] eqn:Gy; [|discriminate]. unfold s1 in Gy. cbn [get] in Gy. destruct (Z.eqb_spec k j); [lia|].
      rewrite (Nf j) in Gy by lia. discriminate.
    + intros n x Hin. cbn [i_ents] in Hin. apply in_app_iff in Hin. destruct Hin as [Hin|[Hin|[]]].
      * destruct (Nm _ _ Hin) as [Y|[j [Hj Y]]]; [auto|]. right. exists j. split; [lia|exact Y].
      * injection Hin as <- <-. right. exists (Z.of_nat m). split; [lia|reflexivity].
Qed.
Theorem dir_links_within_limit_refuted : exists s d n d' n' s' i, clean s /\ legal s (NRename d n d' n' plain) /\
  (forall k j, get s k = Some j -> i_dir j = false -> loadable j) /\
  run_op (NRename d n d' n' plain) [] s = Ok tt [] s' /\ get s' d' = Some i /\ ~ loadable i.
Proof.
  destruct (crowded (Z.to_nat 32764)) as [s [i [a [C [Gr [Dr [Lr [Zr [Ga [Da [Ea [[c [Gc Dc]] [Nf Nm]]]]]]]]]]]]]; [lia|].
  rewrite Z2Nat.id in * by lia.
  assert (En : ent_of (i_ents i) C_ = None).
  { destruct (ent_of (i_ents i) C_) as [x|] eqn:X; [|reflexivity]. apply ent_of_in in X.
    destruct (Nm _ _ X) as [Y|[j [Hj Y]]]; discriminate. }
  destruct (move_runs s 2 B_ 3 INO_ROOT C_ a c i Ga Da Ea Gc Gr Dr En) as [s1 [R1 E]].
  { rewrite Zr. unfold DIR_ENTRIES_MAX. lia. }
  { lia. }
  destruct R1 as [a' [c' [Ga' [_ [Gc' ->]]]]].
  assert (a' = a) by congruence. assert (c' = c) by congruence. subst.
  destruct (change_get s 2 3 (-1) (fun l => ent_del l B_) INO_ROOT _ _ Ga Gc) as [p Q]. rewrite Gr in Q.
  destruct (change_get s 2 3 (-1) (fun l => ent_del l B_) 3 _ _ Ga Gc) as [p3 Q3]. rewrite Gc in Q3.
  set (s1 := change s 2 3 (-1) (fun l => ent_del l B_)) in *.
  destruct (change_get s1 INO_ROOT 3 1 (fun l => l ++ [(C_, 3)]) INO_ROOT _ _ Q Q3) as [q Q2]. rewrite Q in Q2.
  exists s, 2, B_, INO_ROOT, C_. eexists _, _. split; [exact C|]. split.
  { cbn [legal]. unfold entry. rewrite Ga, Gr, Ea, En. discriminate. }
  split; [intros k j Gj Dj; eapply file_links_within_limit; [apply clean_hist; exact C|exact Gj|exact Dj]|].
  split; [exact E|]. split; [exact Q2|]. unfold loadable. cbn [i_nlink i_dir]. rewrite Dc.
  change (INO_ROOT =? 3) with false. change (INO_ROOT =? 2) with false. change (INO_ROOT =? INO_ROOT) with true. cbn [andb].
  unfold LINK_MAX. rewrite Lr. lia.
Qed.
Print Assumptions dir_links_within_limit_refuted.
