(* Lock files: the steps of the commands, seen from the lock files. *)
From Verif Require Import Base AddrModel MntModel WalkModel RulesModel CaddrModel BrefModel BrefProofs LockModel LockSpec.

Lemma hex8_len : forall v, length (hex8 v) = 8%nat.
Proof. reflexivity. Qed.
Lemma lock_eq : forall n, short n -> lock_name n = lock_file n.
Proof.
  intros n H. unfold short in H. unfold lock_name. rewrite firstn_all2; [reflexivity|]. rewrite !app_length. cbn [length]. lia.
Qed.
Lemma lock_inj : forall n m, short n -> short m -> lock_name n = lock_name m -> n = m.
Proof.
  intros n m H1 H2. rewrite !lock_eq by auto. unfold lock_file. intros E. injection E as E. apply app_inv_tail in E. auto.
Qed.
Lemma temp_lock : forall n m t, short n -> short m -> temp_name n t <> lock_name m.
Proof.
  intros n m t H1 H2 E. rewrite lock_eq in E by auto. unfold temp_name, lock_file, short in *.
  rewrite firstn_all2 in E by (rewrite !app_length, hex8_len; cbn [length]; lia).
  assert (X : last ([46] ++ n ++ [95] ++ hex8 t ++ [46; 108; 111; 99; 107; 126]) 0 = last (46 :: m ++ [46; 108; 111; 99; 107]) 0) by (rewrite E; auto).
  change (46 :: m ++ [46; 108; 111; 99; 107]) with ((46 :: m) ++ [46; 108; 111; 99] ++ [107]) in X.
  change [46; 108; 111; 99; 107; 126] with ([46; 108; 111; 99; 107] ++ [126]) in X. rewrite !app_assoc, !last_last in X. discriminate.
Qed.
Lemma dset_same : forall A (d : bytes -> option A) n v, dset d n v n = v.
Proof. intros. unfold dset. rewrite (proj2 (same_name_iff n n) eq_refl). auto. Qed.
Lemma dset_other : forall A (d : bytes -> option A) n v m, n <> m -> dset d n v m = d m.
Proof. intros A d n v m H. unfold dset. destruct (same_name n m) eqn:E; [|auto]. apply same_name_iff in E. congruence. Qed.

(* ---- what holds of every command ---- *)
Definition pre_pc (c : pc) : Prop :=
  match c with PCheck | PLock | PWait _ | PTemp | PWrite _ | PRename | PUndo | PMark => True | _ => False end.
Definition wfp (p : proc) : Prop :=
  short (p_name p) /\ short (p_ar p) /\ (pre_pc (p_pc p) -> p_has p = false) /\ (p_pc p = PWork -> p_has p = true).
Definition same_cmd (p p' : proc) : Prop := p_cmd p' = p_cmd p /\ p_name p' = p_name p /\ p_ar p' = p_ar p.
Definition quiet (w w' : world) : Prop := forall n, short n -> w_dir w' (lock_name n) = w_dir w (lock_name n).
Definition moves (w w' : world) (i : nat) (p p' : proc) : Prop :=
  w_procs w i = Some p /\ w_procs w' i = Some p' /\ (forall j, j <> i -> w_procs w' j = w_procs w j) /\ same_cmd p p' /\ wfp p'.

Inductive change (w w' : world) (l : label) : Prop :=
| ch_none : w' = w -> change w w' l
| ch_quiet i p p' : moves w w' i p p' -> quiet w w' -> i = l_who l -> (inside (p_pc p') -> inside (p_pc p)) ->
    (tidy w l -> inside (p_pc p) -> inside (p_pc p')) -> change w w' l
| ch_got i p p' ino : moves w w' i p p' -> i = l_who l -> ~ inside (p_pc p) -> p_pc p' = PMark ->
    w_dir w (lock_name (acq_name p)) = None -> w_dir w' (lock_name (acq_name p)) = Some ino ->
    (forall n, short n -> n <> acq_name p -> w_dir w' (lock_name n) = w_dir w (lock_name n)) -> change w w' l
| ch_freed i p p' : moves w w' i p p' -> i = l_who l -> p_pc p = PRel3 -> p_pc p' = PRel4 ->
    w_dir w' (lock_name (rel_name p)) = None ->
    (forall n, short n -> n <> rel_name p -> w_dir w' (lock_name n) = w_dir w (lock_name n)) -> change w w' l.

Lemma acq_short : forall p, wfp p -> short (acq_name p).
Proof. intros p (H1 & H2 & _). unfold acq_name. destruct (p_cmd p); auto. Qed.
Lemma inside_dec : forall c, {inside c} + {~ inside c}.
Proof. intros c. destruct c; try (left; constructor); right; intros H; inversion H. Qed.
Lemma set_proc_moves : forall w w0 i p p', w_procs w i = Some p -> w_procs w0 = w_procs w -> same_cmd p p' -> wfp p' -> moves w (set_proc w0 i p') i p p'.
Proof.
  intros w w0 i p p' HP H0 HS HW. split; [auto|]. split; [cbn [set_proc w_procs]; rewrite Nat.eqb_refl; auto|].
  split; [|auto]. intros j HJ. cbn [set_proc w_procs]. destruct (Nat.eqb i j) eqn:E; [apply Nat.eqb_eq in E; congruence|]. rewrite H0. auto.
Qed.
Lemma quiet_refl : forall w i p, quiet w (set_proc w i p).
Proof. intros w i p n _. reflexivity. Qed.
Lemma quiet_temp : forall w i p m t v, short m -> quiet w (set_proc (set_ldir w (dset (w_dir w) (temp_name m t) v)) i p).
Proof. intros w i p m t v HM n HN. cbn [set_proc set_ldir w_dir]. apply dset_other. apply temp_lock; auto. Qed.

Lemma step_change : forall w l, (forall i p, w_procs w i = Some p -> wfp p) -> calm w l -> change w (step1 w l) l.
Proof.
  intros w l HW HC. unfold step1. destruct (w_procs w (l_who l)) as [p|] eqn:EP; [|apply ch_none; auto].
  destruct (ended (p_pc p)) eqn:EE; [apply ch_none; auto|]. pose proof (HW _ _ EP) as (W1 & W2 & W3 & W4). pose proof (HW _ _ EP) as WP. pose proof (acq_short _ WP) as WA.
  (* a step that moves the command alone *)
  assert (Q : forall w0 p', w_procs w0 = w_procs w -> (forall n, short n -> w_dir w0 (lock_name n) = w_dir w (lock_name n)) ->
    same_cmd p p' -> wfp p' -> (inside (p_pc p') -> inside (p_pc p)) -> (tidy w l -> inside (p_pc p) -> inside (p_pc p')) ->
    change w (set_proc w0 (l_who l) p') l).
  { intros w0 p' H1 H2 H3 H4 H5 H6. eapply ch_quiet with (p := p) (p' := p'); [apply set_proc_moves; auto|intros n HN; cbn [set_proc w_dir]; auto|auto|auto|auto]. }
  assert (XD : pre_pc (p_pc p) -> at_exit p = goto p PDied) by (intros H; unfold at_exit; rewrite (W3 H); auto).
  assert (SC : forall c, same_cmd p (goto p c)) by (intros c; split; [reflexivity|]; split; reflexivity).
  assert (TN : l_ev l = EErr -> tidy w l -> inside (p_pc p) -> p_pc p = PWork).
  { intros EV [_ T] HI. destruct (T _ EP HI) as [X|[X _]]; [congruence|auto]. }
  Ltac wf W3 := split; [assumption|]; split; [assumption|]; cbn [goto set_has set_now p_pc p_has pre_pc]; split;
    [first [tauto | (intros _; apply W3; exact I)] | first [(intros X; discriminate X) | (intros _; reflexivity)]].
  Ltac side W3 := cbn [goto set_has set_now p_pc]; solve
    [ reflexivity | assumption
    | split; [reflexivity|split; reflexivity]
    | intros n HN; reflexivity
    | intros n HN; cbn [set_ldir w_dir]; apply dset_other; apply temp_lock; assumption
    | wf W3
    | intros X; inversion X | intros _ X; inversion X | intros; constructor ].
  assert (DIE : pre_pc (p_pc p) -> ~ inside (p_pc p) -> change w (set_proc w (l_who l) (at_exit p)) l).
  { intros H1 H2. rewrite (XD H1). apply Q; try side W3. intros _ X. tauto. }
  destruct (l_ev l) eqn:EV.
  - (* ok *)
    unfold act. destruct (p_pc p) eqn:EC; try discriminate.
    + (* PCheck *) assert (D := DIE I ltac:(intros X; inversion X)). assert (G : change w (set_proc w (l_who l) (goto p PLock)) l) by (apply Q; side W3).
      destruct (p_cmd p); auto; (destruct (w_refs w (p_name p)); auto).
    + (* PLock *) apply Q; side W3.
    + (* PWait *) assert (D := DIE I ltac:(intros X; inversion X)). destruct (w_dir w (lock_name (acq_name p))); [|apply Q; side W3].
      destruct (Nat.ltb (S tries) 10); [apply Q; side W3|exact D].
    + (* PTemp *) unfold open_creat. destruct (w_dir w (tnow p)) as [k|] eqn:ED; apply Q; side W3.
    + (* PWrite *) apply Q; side W3.
    + (* PRename *)
      assert (U : change w (set_proc w (l_who l) (goto p PUndo)) l) by (apply Q; side W3).
      destruct (w_dir w (tnow p)) as [ino|] eqn:E1; [|exact U]. destruct (w_dir w (lock_name (acq_name p))) as [k|] eqn:E2; [exact U|].
      eapply ch_got with (p := p) (ino := ino); [apply set_proc_moves; [auto|reflexivity|apply SC|wf W3]|auto|rewrite EC; intros X; inversion X|reflexivity|auto| |].
      * cbn [set_proc set_ldir w_dir]. apply dset_same.
      * intros n HN HNE. cbn [set_proc set_ldir w_dir]. rewrite dset_other by (intros X; apply lock_inj in X; auto). apply dset_other. apply temp_lock; auto.
    + (* PUndo *) rewrite XD by exact I. apply Q; side W3.
    + (* PMark *) apply Q; side W3.
    + (* PWork *) destruct (p_cmd p); apply Q; side W3.
    + (* PRel1 *) apply Q; side W3.
    + (* PRel2 *) apply Q; side W3.
    + (* PRel3 *) eapply ch_freed with (p := p); [apply set_proc_moves; [auto|reflexivity|apply SC|wf W3]|auto|auto|reflexivity| |].
      * cbn [set_proc set_ldir w_dir]. apply dset_same.
      * intros n HN HNE. cbn [set_proc set_ldir w_dir]. apply dset_other. intros X; apply lock_inj in X; auto.
    + (* PRel4 *) apply Q; side W3.
  - (* err *)
    specialize (TN eq_refl). unfold act. destruct (p_pc p) eqn:EC; try discriminate.
    + assert (D := DIE I ltac:(intros X; inversion X)). assert (G : change w (set_proc w (l_who l) (goto p PLock)) l) by (apply Q; side W3).
      destruct (p_cmd p); auto; (destruct (w_refs w (p_name p)); auto).
    + apply DIE; [exact I|intros X; inversion X].
    + apply DIE; [exact I|intros X; inversion X].
    + apply DIE; [exact I|intros X; inversion X].
    + apply Q; side W3.
    + apply Q; side W3.
    + apply DIE; [exact I|intros X; inversion X].
    + apply Q; side W3.
    + destruct (p_cmd p); apply Q; side W3.
    + apply Q; try side W3. intros T X. apply TN in X; [discriminate|auto].
    + apply Q; side W3.
    + apply Q; try side W3. intros T X. apply TN in X; [discriminate|auto].
    + apply Q; side W3.
  - (* kill *)
    apply Q; try side W3. intros [_ T] HI. destruct (T _ EP HI) as [X|[_ X]]; congruence.
  - (* term *)
    assert (NR : p_pc p <> PRel4) by (intros X; apply (HC EV); exists p; auto). unfold at_exit. destruct (p_has p) eqn:EH.
    + apply Q; try side W3. intros _. destruct (p_pc p); try constructor; try discriminate; try congruence; exfalso; discriminate (W3 I).
    + apply Q; try side W3. intros [_ T] HI. destruct (T _ EP HI) as [X|[X _]]; [congruence|]. discriminate (W4 X).
Qed.

(* ---- invariants ---- *)
Definition world_ok (w : world) : Prop :=
  (forall i p, w_procs w i = Some p -> wfp p /\ p_cmd p <> Restore) /\
  (forall i j n, holds w i n -> holds w j n -> i = j) /\
  (forall i n, holds w i n -> w_dir w (lock_name n) <> None).
Lemma takes_acq : forall p n, takes p n <-> n = acq_name p.
Proof. intros p n. unfold takes, acq_name. tauto. Qed.
Lemma same_acq : forall p p', same_cmd p p' -> acq_name p' = acq_name p.
Proof. intros p p' (H1 & H2 & H3). unfold acq_name. rewrite H1, H2, H3. auto. Qed.
Lemma holds_move : forall w w' i p p' j n, moves w w' i p p' -> holds w' j n -> j <> i \/ (inside (p_pc p') -> inside (p_pc p)) -> holds w j n.
Proof.
  intros w w' i p p' j n (M1 & M2 & M3 & M4 & _) (q & H1 & H2 & H3) HD. destruct (Nat.eq_dec j i) as [-> |HJ].
  - rewrite M2 in H1. injection H1 as <-. destruct HD as [HD|HD]; [congruence|]. exists p. split; [auto|]. split; [|auto].
    apply (proj2 (takes_acq _ _)). apply (proj1 (takes_acq _ _)) in H2. rewrite H2. apply same_acq. auto.
  - exists q. rewrite <- M3 by auto. auto.
Qed.
Lemma holds_short : forall w i n, world_ok w -> holds w i n -> short n.
Proof.
  intros w i n (W & _) (p & H1 & H2 & _). apply (proj1 (takes_acq _ _)) in H2. subst n. apply acq_short. apply (W i). auto.
Qed.
Lemma procs_ok : forall w, world_ok w -> forall i p, w_procs w i = Some p -> wfp p.
Proof. intros w (W & _) i p H. apply (W i). auto. Qed.
Lemma moved_ok : forall w w' i p p', world_ok w -> moves w w' i p p' -> forall j q, w_procs w' j = Some q -> wfp q /\ p_cmd q <> Restore.
Proof.
  intros w w' i p p' (W & _) (M1 & M2 & M3 & (C1 & _) & M5) j q H. destruct (Nat.eq_dec j i) as [-> |HJ].
  - rewrite M2 in H. injection H as <-. split; [auto|]. rewrite C1. apply (W i). auto.
  - rewrite M3 in H by auto. apply (W j). auto.
Qed.
Lemma not_restore_rel : forall p, p_cmd p <> Restore -> rel_name p = acq_name p.
Proof. intros p H. unfold rel_name, acq_name. destruct (p_cmd p); congruence. Qed.
Lemma step_ok : forall w l, world_ok w -> calm w l -> world_ok (step1 w l).
Proof.
  intros w l HW HC. pose proof (step_change w l (procs_ok w HW) HC) as HX. set (w' := step1 w l) in *. clearbody w'.
  pose proof HW as (W1 & W2 & W3). destruct HX as [EW|i p p' HM HQ HI H1 H2|i p p' ino HM HI H1 H2 HD HD' HF|i p p' HM HI H1 H2 HD HF].
  - rewrite EW. auto.
  - assert (B : forall j n, holds w' j n -> holds w j n) by (intros j n H; eapply holds_move; eauto).
    split; [eapply moved_ok; eauto|]. split; [intros a b n HA HB; apply (W2 a b n); auto|].
    intros a n HA. apply B in HA. rewrite HQ by (eapply holds_short; eauto). apply (W3 a); auto.
  - assert (HS : same_cmd p p') by apply HM. assert (MP' : w_procs w' i = Some p') by apply HM.
    assert (B : forall j n, j <> i -> holds w' j n -> holds w j n) by (intros j n HJ H; eapply holds_move; eauto).
    assert (BN : forall j, j <> i -> ~ holds w' j (acq_name p)) by (intros j HJ X; apply B in X; auto; apply W3 in X; congruence).
    assert (BI : forall n, holds w' i n -> n = acq_name p).
    { intros n (q & X1 & X2 & _). rewrite MP' in X1. injection X1 as <-. apply (proj1 (takes_acq _ _)) in X2. rewrite X2. apply same_acq. auto. }
    split; [eapply moved_ok; eauto|]. split.
    + intros a b n HA HB. destruct (Nat.eq_dec a i) as [-> |NA]; destruct (Nat.eq_dec b i) as [-> |NB]; auto.
      * exfalso. pose proof (BI _ HA) as EN; rewrite EN in *. eapply BN; eauto.
      * exfalso. pose proof (BI _ HB) as EN; rewrite EN in *. eapply BN; eauto.
      * apply (W2 a b n); auto.
    + intros a n HA. destruct (Nat.eq_dec a i) as [-> |NA].
      * pose proof (BI _ HA) as EN; rewrite EN in *. rewrite HD'. discriminate.
      * pose proof (B _ _ NA HA) as HB. rewrite HF; [apply (W3 a); auto|eapply holds_short; eauto|]. intros ->. eapply BN; eauto.
  - assert (HS : same_cmd p p') by apply HM. assert (MP' : w_procs w' i = Some p') by apply HM. assert (MP : w_procs w i = Some p) by apply HM.
    assert (NI : forall n, ~ holds w' i n) by (intros n (q & X1 & _ & X3); rewrite MP' in X1; injection X1 as <-; rewrite H2 in X3; inversion X3).
    assert (B : forall j n, holds w' j n -> holds w j n) by (intros j n H; eapply holds_move; eauto; right; rewrite H2; intros X; inversion X).
    split; [eapply moved_ok; eauto|]. split; [intros a b n HA HB; apply (W2 a b n); auto|].
    intros a n HA. pose proof (B _ _ HA) as HB. rewrite HF; [apply (W3 a); auto|eapply holds_short; eauto|]. intros ->.
    destruct (W1 _ _ MP) as [_ WR]. rewrite not_restore_rel in HB by auto.
    assert (holds w i (acq_name p)) by (exists p; split; [auto|split; [apply (proj2 (takes_acq _ _)); auto|rewrite H1; constructor]]).
    assert (a = i) by (eapply W2; eauto). subst a. eapply NI; eauto.
Qed.
Lemma runs_ok : forall ls w, world_ok w -> always calm w ls -> world_ok (runs w ls).
Proof.
  induction ls as [|l ls IH]; intros w HW HA; [auto|]. destruct HA as [HC HA]. cbn [runs]. apply IH; auto. apply step_ok; auto.
Qed.
Lemma start_ok : forall w, starting w -> no_restore w -> world_ok w.
Proof.
  intros w HS HN. assert (NH : forall i n, ~ holds w i n).
  { intros i n (p & H1 & _ & H3). apply HS in H1. destruct H1 as [E _]. rewrite E in H3. inversion H3. }
  split; [|split].
  - intros i p H. pose proof (HS _ _ H) as (H1 & H2 & H3 & H4). split; [|eapply HN; eauto]. split; [auto|]. split; [auto|]. split; [auto|]. rewrite H1. discriminate.
  - intros i j n H. exfalso. eapply NH; eauto.
  - intros i n H. exfalso. eapply NH; eauto.
Qed.

(* a lock file is held, or it was there *)
Definition kept_locks (d0 : bytes -> option nat) (w : world) : Prop :=
  forall n, short n -> w_dir w (lock_name n) <> None -> d0 (lock_name n) <> None \/ exists i, holds w i n.
Lemma step_kept : forall d0 w l, world_ok w -> tidy w l -> kept_locks d0 w -> kept_locks d0 (step1 w l).
Proof.
  intros d0 w l HW HT HK. pose proof (step_change w l (procs_ok w HW) (proj1 HT)) as HX. set (w' := step1 w l) in *. clearbody w'.
  destruct HX as [EW|i p p' HM HQ HI H1 H2|i p p' ino HM HI H1 H2 HD HD' HF|i p p' HM HI H1 H2 HD HF].
  - rewrite EW. auto.
  - intros n HN HL. rewrite HQ in HL by auto. destruct (HK n HN HL) as [X|[j (q & X1 & X2 & X3)]]; [auto|right].
    destruct HM as (M1 & M2 & M3 & M4 & _). destruct (Nat.eq_dec j i) as [-> |HJ].
    + rewrite M1 in X1. injection X1 as <-. exists i, p'. split; [auto|]. split; [apply (proj2 (takes_acq _ _)); rewrite (same_acq _ _ M4); apply (proj2 (takes_acq _ _)); auto|auto].
    + exists j, q. rewrite M3 by auto. auto.
  - intros n HN HL. destruct HM as (M1 & M2 & M3 & M4 & _). destruct (list_eq_dec Z.eq_dec n (acq_name p)) as [-> |HNE].
    + right. exists i, p'. split; [auto|]. split; [apply (proj2 (takes_acq _ _)); rewrite (same_acq _ _ M4); auto|rewrite H2; constructor].
    + rewrite HF in HL by auto. destruct (HK n HN HL) as [X|[j (q & X1 & X2 & X3)]]; [auto|right].
      destruct (Nat.eq_dec j i) as [-> |HJ]; [rewrite M1 in X1; injection X1 as <-; contradiction|]. exists j, q. rewrite M3 by auto. auto.
  - intros n HN HL. destruct HM as (M1 & M2 & M3 & M4 & _). destruct (list_eq_dec Z.eq_dec n (rel_name p)) as [-> |HNE]; [congruence|].
    rewrite HF in HL by auto. destruct (HK n HN HL) as [X|[j (q & X1 & X2 & X3)]]; [auto|right].
    destruct (Nat.eq_dec j i) as [-> |HJ]; [|exists j, q; rewrite M3 by auto; auto]. rewrite M1 in X1. injection X1 as <-. exfalso. apply HNE.
    apply (proj1 (takes_acq _ _)) in X2. rewrite X2. symmetry. apply not_restore_rel. apply HW with i. auto.
Qed.
Lemma runs_kept : forall d0 ls w, world_ok w -> always tidy w ls -> kept_locks d0 w -> kept_locks d0 (runs w ls) /\ world_ok (runs w ls).
Proof.
  intros d0. induction ls as [|l ls IH]; intros w HW HA HK; [auto|]. destruct HA as [HC HA]. cbn [runs]. apply IH; auto; [apply step_ok; auto; apply HC|apply step_kept; auto].
Qed.

(* a lock file that nobody holds stays *)
Definition stale (n : bytes) (w : world) : Prop := w_dir w (lock_name n) <> None /\ forall i, ~ holds w i n.
Lemma step_stale : forall n w l, short n -> world_ok w -> calm w l -> stale n w -> stale n (step1 w l).
Proof.
  intros n w l HN HW HC [S1 S2]. pose proof (step_change w l (procs_ok w HW) HC) as HX. set (w' := step1 w l) in *. clearbody w'.
  destruct HX as [EW|i p p' HM HQ HI H1 H2|i p p' ino HM HI H1 H2 HD HD' HF|i p p' HM HI H1 H2 HD HF].
  - rewrite EW. split; auto.
  - split; [rewrite HQ; auto|]. intros j H. apply (S2 j). eapply holds_move; eauto.
  - assert (NE : n <> acq_name p) by (intros ->; congruence). split; [rewrite HF; auto|]. intros j H. destruct (Nat.eq_dec j i) as [-> |HJ].
    + destruct H as (q & X1 & X2 & _). destruct HM as (M1 & M2 & M3 & M4 & _). rewrite M2 in X1. injection X1 as <-. apply (proj1 (takes_acq _ _)) in X2. rewrite (same_acq _ _ M4) in X2. auto.
    + apply (S2 j). eapply holds_move; eauto.
  - assert (MP : w_procs w i = Some p) by apply HM. assert (NE : n <> rel_name p).
    { intros ->. apply (S2 i). exists p. split; [auto|]. split; [|rewrite H1; constructor]. apply (proj2 (takes_acq _ _)). apply not_restore_rel. apply HW with i. auto. }
    split; [rewrite HF; auto|]. intros j H. apply (S2 j). eapply holds_move; eauto. right. rewrite H2. intros X; inversion X.
Qed.
Lemma runs_stale : forall n ls w, short n -> world_ok w -> always calm w ls -> stale n w -> stale n (runs w ls).
Proof.
  intros n. induction ls as [|l ls IH]; intros w HN HW HA HS; [auto|]. destruct HA as [HC HA]. cbn [runs]. apply IH; auto; [apply step_ok; auto|apply step_stale; auto].
Qed.

(* ---- one command alone ---- *)
Lemma step_ok_eq : forall w i p t, w_procs w i = Some p -> ended (p_pc p) = false -> step1 w (mkLab i EOk t) = act w i p true t.
Proof. intros w i p t H E. unfold step1. cbn [l_who l_ev l_time]. rewrite H, E. auto. Qed.
Lemma proc_set : forall w i p, w_procs (set_proc w i p) i = Some p.
Proof. intros w i p. cbn [set_proc w_procs]. rewrite Nat.eqb_refl. auto. Qed.
Lemma act_wait : forall w i p t k, p_pc p = PWait k -> w_dir w (lock_name (acq_name p)) = None -> act w i p true t = set_proc w i (goto p PTemp).
Proof. intros w i p t k H1 H2. unfold act. rewrite H1, H2. auto. Qed.
Lemma act_rename : forall w i p t ino, p_pc p = PRename -> w_dir w (tnow p) = Some ino -> w_dir w (lock_name (acq_name p)) = None ->
  act w i p true t = set_proc (set_ldir w (dset (dset (w_dir w) (tnow p) None) (lock_name (acq_name p)) (Some ino))) i (goto p PMark).
Proof. intros w i p t ino H1 H2 H3. unfold act. rewrite H1, H2, H3. auto. Qed.

(* ---- boot-refs ---- *)
Definition past (p : proc) : Prop := match p_pc p with PCheck | PDied | PKilled => True | _ => False end.
Definition kept_ref (n : bytes) (k : nat) (w : world) : Prop :=
  w_refs w n = Some k /\ forall i p, w_procs w i = Some p -> p_cmd p <> Other -> p_name p = n -> past p /\ p_has p = false.
Lemma kept_set : forall n k w0 w i p, w_refs w0 = w_refs w -> w_procs w0 = w_procs w -> kept_ref n k w ->
  (p_cmd p <> Other -> p_name p = n -> past p /\ p_has p = false) -> kept_ref n k (set_proc w0 i p).
Proof.
  intros n k w0 w i p E1 E2 (H1 & H2) HP. split; [cbn [set_proc w_refs]; congruence|]. intros j q. cbn [set_proc w_procs]. destruct (Nat.eqb i j).
  - intros E. injection E as <-. auto.
  - rewrite E2. apply H2.
Qed.
Lemma exit_past : forall p, p_has p = false -> past (at_exit p) /\ p_has (at_exit p) = false.
Proof. intros p H. unfold at_exit. rewrite H. split; [exact I|auto]. Qed.
Lemma exit_cmd : forall p, p_cmd (at_exit p) = p_cmd p /\ p_name (at_exit p) = p_name p.
Proof. intros p. unfold at_exit. destruct (p_has p); auto. Qed.
Lemma step_ref : forall n k w l, kept_ref n k w -> kept_ref n k (step1 w l).
Proof.
  intros n k w l HK. unfold step1. destruct (w_procs w (l_who l)) as [p|] eqn:EP; [|auto]. destruct (ended (p_pc p)) eqn:EE; [auto|].
  pose proof HK as [HR HP]. specialize (HP _ _ EP).
  assert (NO : forall w0 p', w_refs w0 = w_refs w -> w_procs w0 = w_procs w -> p_cmd p' = p_cmd p -> p_name p' = p_name p ->
     ~ (p_cmd p <> Other /\ p_name p = n) -> kept_ref n k (set_proc w0 (l_who l) p')).
  { intros w0 p' E1 E2 E3 E4 HN. apply kept_set with (w := w); auto. rewrite E3, E4. tauto. }
  assert (A : forall ok, kept_ref n k (act w (l_who l) p ok (l_time l))).
  { intros ok. destruct (p_pc p) eqn:EC; try discriminate.
    1:{ unfold act. rewrite EC. destruct (p_cmd p) eqn:ECM.
      - destruct (w_refs w (p_name p)) as [x|] eqn:ER.
        + apply kept_set with (w := w); auto. destruct (exit_cmd p) as [-> ->]. intros X Y. apply exit_past. apply HP; congruence.
        + destruct ok; (apply kept_set with (w := w); auto); [|destruct (exit_cmd p) as [-> ->]]; intros X Y; exfalso; cbn [goto p_name] in Y; congruence.
      - destruct (w_refs w (p_name p)) as [x|] eqn:ER.
        + apply kept_set with (w := w); auto. destruct (exit_cmd p) as [-> ->]. intros X Y. apply exit_past. apply HP; congruence.
        + destruct ok; (apply kept_set with (w := w); auto); [|destruct (exit_cmd p) as [-> ->]]; intros X Y; exfalso; cbn [goto p_name] in Y; congruence.
      - apply kept_set with (w := w); auto. cbn [goto p_cmd]. congruence. }
    all: assert (N : ~ (p_cmd p <> Other /\ p_name p = n)) by (intros [X Y]; destruct (HP X Y) as [Z _]; unfold past in Z; rewrite EC in Z; exact Z).
    all: unfold act; rewrite EC.
    - destruct ok; apply NO; auto; apply exit_cmd.
    - destruct ok; [|apply NO; auto; apply exit_cmd]. destruct (w_dir w (lock_name (acq_name p))); [|apply NO; auto].
      destruct (Nat.ltb (S tries) 10); apply NO; auto; apply exit_cmd.
    - destruct ok; [|apply NO; auto; apply exit_cmd]. unfold open_creat. destruct (w_dir w (tnow p)); apply NO; auto.
    - destruct ok; apply NO; auto.
    - destruct ok; [|apply NO; auto]. destruct (w_dir w (tnow p)); [|apply NO; auto]. destruct (w_dir w (lock_name (acq_name p))); apply NO; auto.
    - destruct ok; apply NO; auto; apply exit_cmd.
    - apply NO; auto.
    - assert (B : p_cmd p <> Other -> kept_ref n k (set_proc (if ok then set_refs w (dset (w_refs w) (p_name p) (Some (l_who l))) else w) (l_who l) (goto p PRel1))).
      { intros X. destruct ok; [|apply NO; auto]. assert (NE : p_name p <> n) by tauto. split.
        - cbn [set_proc set_refs w_refs]. rewrite dset_other by auto. auto.
        - intros j q. cbn [set_proc set_refs w_procs]. destruct (Nat.eqb (l_who l) j); [|apply HK]. intros E. injection E as <-. cbn [goto p_name]. congruence. }
      destruct (p_cmd p) eqn:ECM; [apply B; discriminate|apply B; discriminate|]. apply kept_set with (w := w); auto. cbn [goto p_cmd]. congruence.
    - destruct ok; apply NO; auto.
    - destruct ok; apply NO; auto.
    - destruct ok; apply NO; auto.
    - apply NO; auto. }
  destruct (l_ev l); auto; (apply kept_set with (w := w); auto); [|destruct (exit_cmd p) as [-> ->]]; cbn [goto p_cmd p_name p_has]; intros X Y.
  - destruct (HP X Y) as [_ Z]. split; [exact I|exact Z].
  - apply exit_past. apply HP; auto.
Qed.
Lemma runs_ref : forall n k ls w, kept_ref n k w -> kept_ref n k (runs w ls).
Proof. intros n k. induction ls as [|l ls IH]; intros w H; [auto|]. cbn [runs]. apply IH. apply step_ref. auto. Qed.
