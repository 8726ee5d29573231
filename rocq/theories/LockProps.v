(* C60: lock files keep commands on one file system apart *)
From Verif Require Import Base AddrModel MntModel WalkModel RulesModel CaddrModel BrefModel BrefProofs LockModel LockSpec LockProofs.

(* ---- small worlds ---- *)
Definition NMA : bytes := [102; 115].           (* "fs" *)
Definition NMB : bytes := [97; 114].            (* "ar" *)
Definition job (c : command) (n a : bytes) (pid : Z) : proc := mkProc c n a pid 0 false PCheck.
Definition world_of (d : list bytes) (r : list (bytes * nat)) (ps : list proc) : world :=
  mkWorld (fun n => if existsb (same_name n) d then Some 100%nat else None) (fun _ => []) 0
    (fun n => match List.find (fun e => same_name n (fst e)) r with Some e => Some (snd e) | None => None end) (nth_error ps).
Definition oks (l : list nat) : list label := map (fun i => mkLab i EOk 5) l.
Definition times (k i : nat) : list nat := repeat i k.
Lemma world_starts : forall d r ps, Forall (fun p => p_pc p = PCheck /\ p_has p = false /\ short (p_name p) /\ short (p_ar p)) ps ->
  starting (world_of d r ps).
Proof. intros d r ps H i p HI. rewrite Forall_forall in H. apply H. apply nth_error_In with i. exact HI. Qed.
Lemma world_plain : forall d r ps, Forall (fun p => p_cmd p <> Restore) ps -> no_restore (world_of d r ps).
Proof. intros d r ps H i p HI. rewrite Forall_forall in H. apply H. apply nth_error_In with i. exact HI. Qed.
Ltac starts := apply world_starts; repeat constructor; unfold short; vm_compute; lia.
Ltac plain := apply world_plain; repeat constructor; discriminate.
Lemma oks_calm : forall ls w, Forall (fun l => l_ev l = EOk) ls -> always tidy w ls.
Proof.
  induction ls as [|l ls IH]; intros w H; [exact I|]. pose proof (Forall_inv H) as H1. cbn [always]. split; [|apply IH; inversion H; auto].
  split; [intros X; congruence|]. intros p _ _. left. exact H1.
Qed.
Lemma always_calm : forall ls w, always tidy w ls -> always calm w ls.
Proof. induction ls as [|l ls IH]; intros w H; [exact I|]. destruct H as [[H _] H2]. split; auto. Qed.
(* a check of tidy by computation *)
Definition insideb (c : pc) : bool := match c with PMark | PWork | PRel1 | PRel2 | PRel3 => true | _ => false end.
Definition tidyb (w : world) (l : label) : bool :=
  match w_procs w (l_who l) with
  | None => true
  | Some p => match l_ev l with
              | EOk => true
              | EKill => negb (insideb (p_pc p))
              | EErr => match p_pc p with PWork => true | c => negb (insideb c) end
              | ETerm => match p_pc p with PWork => true | PRel4 => false | c => negb (insideb c) end
              end
  end.
Fixpoint alwaysb (P : world -> label -> bool) (w : world) (ls : list label) : bool :=
  match ls with [] => true | l :: r => P w l && alwaysb P (step1 w l) r end.
Lemma tidyb_ok : forall w l, tidyb w l = true -> tidy w l.
Proof.
  intros w l H. unfold tidyb in H. split.
  - intros X (p & H1 & H2). rewrite H1, X, H2 in H. discriminate.
  - intros p H1 H2. rewrite H1 in H. destruct (l_ev l); auto; inversion H2 as [E|E|E|E|E]; rewrite <- E in H; try discriminate; right; split; auto; discriminate.
Qed.
Lemma alwaysb_ok : forall ls w, alwaysb tidyb w ls = true -> always tidy w ls.
Proof. induction ls as [|l ls IH]; intros w H; [exact I|]. cbn [alwaysb] in H. apply andb_prop in H. destruct H as [H1 H2]. split; [apply tidyb_ok; auto|auto]. Qed.
Definition all_ok (ls : list label) : Prop := Forall (fun l => l_ev l = EOk) ls.
Lemma oks_ok : forall l, all_ok (oks l).
Proof. intros l. unfold oks. apply Forall_map. apply Forall_forall. auto. Qed.

(* C60: without restore, and without an exit signal in the moment between the removal of a lock
   file and the note that it is gone: whatever calls fail, whoever is killed and however the
   commands interleave, at most one command has the lock of a file system, and its lock file is
   there until it removes the file itself *)
Theorem lock_exclusive : forall w ls, starting w -> no_restore w -> always calm w ls ->
  (forall i j n, holds (runs w ls) i n -> holds (runs w ls) j n -> i = j) /\
  (forall i n, holds (runs w ls) i n -> locked (runs w ls) n).
Proof.
  intros w ls HS HN HA. pose proof (runs_ok ls w (start_ok w HS HN) HA) as HW. split; [apply HW|]. intros i n H. unfold locked.
  rewrite <- lock_eq by (eapply holds_short; eauto). destruct HW as (_ & _ & W3). apply (W3 i). auto.
Qed.
Print Assumptions lock_exclusive.
(* two commands on "fs" and one on "ar", their calls mixed; one of them is killed *)
Definition mixed : world := world_of [] [] [job Other NMA NMA 7; job Mkfs NMA NMA 8; job Other NMB NMB 9].
Definition mixed_run : list label := oks [0; 1; 2; 0; 1; 2; 0; 1; 2; 0; 1; 2; 0; 1; 2; 0; 1; 2; 0; 2]%nat ++ [mkLab 2 EKill 9].
Example lock_exclusive_ex : starting mixed /\ no_restore mixed /\ always calm mixed mixed_run /\
  (let w := runs mixed mixed_run in holds w 0 NMA /\ at_pc w 1 PUndo /\ at_pc w 2 PKilled /\ locked w NMA /\ locked w NMB).
Proof.
  split; [starts|]. split; [plain|]. split.
  - vm_compute. repeat split; intros X; discriminate.
  - cbv zeta. split; [exists (mkProc Other NMA NMA 7 5 true PWork); split; [vm_compute; reflexivity|split; [reflexivity|constructor]]|].
    split; [exists (mkProc Mkfs NMA NMA 8 5 false PUndo); split; vm_compute; reflexivity|].
    split; [exists (mkProc Other NMB NMB 9 5 true PKilled); split; vm_compute; reflexivity|].
    split; unfold locked; vm_compute; discriminate.
Qed.

(* C60: without restore, when no command is ended and no call fails while it takes note of the
   lock or gives it back (its work may fail, or end by a signal), a lock file that was not there
   before is there only while a command has the lock; when all have ended, none is left *)
Theorem lock_left : forall w ls n, starting w -> no_restore w -> always tidy w ls -> short n -> ~ locked w n ->
  (locked (runs w ls) n -> exists i, holds (runs w ls) i n) /\
  ((forall i p, w_procs (runs w ls) i = Some p -> p_pc p = PEnd \/ p_pc p = PDied \/ p_pc p = PKilled) -> ~ locked (runs w ls) n).
Proof.
  intros w ls n HS HN HA HL HF. pose proof (start_ok w HS HN) as HW.
  assert (K : kept_locks (w_dir w) w) by (intros m _ X; auto). destruct (runs_kept _ ls w HW HA K) as [HK _].
  assert (B : locked (runs w ls) n -> exists i, holds (runs w ls) i n).
  { intros X. unfold locked in X. rewrite <- lock_eq in X by auto. destruct (HK n HL X) as [Y|Y]; [|auto]. exfalso. apply HF. unfold locked. rewrite <- lock_eq; auto. }
  split; [auto|]. intros HE X. destruct (B X) as (i & p & H1 & _ & H3). destruct (HE _ _ H1) as [Y|[Y|Y]]; rewrite Y in H3; inversion H3.
Qed.
Print Assumptions lock_left.
(* the work of one command ends by a signal, that of the next one fails; a third one succeeds *)
Definition rough_run : list label :=
  oks (times 7 0) ++ [mkLab 0 ETerm 6] ++ oks (times 4 0) ++ oks (times 7 1) ++ [mkLab 1 EErr 7] ++ oks (times 4 1) ++ oks (times 12 2).
Definition rough : world := world_of [] [] [job Other NMA NMA 7; job Mkfs NMA NMA 8; job Mkfs NMA NMA 9].
Example lock_left_ex : starting rough /\ no_restore rough /\ always tidy rough rough_run /\ ~ locked rough NMA /\
  (let w := runs rough rough_run in at_pc w 0 PEnd /\ at_pc w 1 PEnd /\ at_pc w 2 PEnd /\ ~ locked w NMA /\ w_refs w NMA = Some 2%nat).
Proof.
  split; [starts|]. split; [plain|]. split.
  - apply alwaysb_ok. vm_compute. reflexivity.
  - split; [intros X; apply X; reflexivity|]. cbv zeta.
    split; [exists (mkProc Other NMA NMA 7 5 false PEnd); split; vm_compute; reflexivity|].
    split; [exists (mkProc Mkfs NMA NMA 8 5 false PEnd); split; vm_compute; reflexivity|].
    split; [exists (mkProc Mkfs NMA NMA 9 5 false PEnd); split; vm_compute; reflexivity|].
    split; [intros X; apply X; vm_compute; reflexivity|vm_compute; reflexivity].
Qed.

(* C60: a command alone, when the lock file is not there, gets the lock in six steps, and the
   lock file then holds its process id *)
Theorem lock_works : forall w i p t, w_procs w i = Some p -> p_pc p = PLock -> short (acq_name p) -> ~ locked w (acq_name p) ->
  let w' := runs w (repeat (mkLab i EOk t) 6) in
  holds w' i (acq_name p) /\ at_pc w' i PWork /\ (forall q, w_procs w' i = Some q -> p_has q = true) /\
  exists ino, w_dir w' (lock_file (acq_name p)) = Some ino /\
    (w_dir w (temp_name (acq_name p) t) = None -> w_data w' ino = print_d (p_pid p) ++ [10]).
Proof.
  intros w i p t HP HC HS HL. cbv zeta. unfold locked in HL. rewrite <- lock_eq in * by auto.
  assert (HD : w_dir w (lock_name (acq_name p)) = None) by (destruct (w_dir w (lock_name (acq_name p))); [exfalso; apply HL; discriminate|auto]).
  clear HL. change (repeat (mkLab i EOk t) 6) with [mkLab i EOk t; mkLab i EOk t; mkLab i EOk t; mkLab i EOk t; mkLab i EOk t; mkLab i EOk t]. cbn [runs].
  set (p1 := set_now (goto p (PWait 0)) t).
  assert (E1 : step1 w (mkLab i EOk t) = set_proc w i p1) by (rewrite (step_ok_eq w i p t HP) by (rewrite HC; auto); unfold act; rewrite HC; auto).
  rewrite E1. set (w1 := set_proc w i p1).
  assert (E2 : step1 w1 (mkLab i EOk t) = set_proc w1 i (goto p1 PTemp)).
  { rewrite (step_ok_eq w1 i p1 t (proc_set _ _ _)) by auto. apply act_wait with 0%nat; [auto|exact HD]. }
  rewrite E2. set (w2 := set_proc w1 i (goto p1 PTemp)). set (T := temp_name (acq_name p) t).
  assert (E3 : exists ino w3, step1 w2 (mkLab i EOk t) = set_proc w3 i (goto p1 (PWrite ino)) /\ w_dir w3 T = Some ino /\
     (w_dir w T = None -> w_data w3 ino = []) /\ w_dir w3 (lock_name (acq_name p)) = None).
  { rewrite (step_ok_eq w2 i (goto p1 PTemp) t (proc_set _ _ _)) by auto. unfold act. cbn [goto p_pc]. unfold open_creat.
    change (tnow (goto p1 PTemp)) with T. change (w_dir w2) with (w_dir w). destruct (w_dir w T) as [k|] eqn:ET.
    - exists k, w2. split; [auto|]. split; [exact ET|]. split; [discriminate|exact HD].
    - eexists (w_next w2), _. split; [reflexivity|]. cbn [w_dir w_data]. split; [apply dset_same|]. split; [rewrite Nat.eqb_refl; auto|].
      rewrite dset_other by (apply temp_lock; auto). exact HD. }
  destruct E3 as (ino & w3 & E3 & D3 & B3 & L3). rewrite E3. set (w4 := set_proc w3 i (goto p1 (PWrite ino))).
  set (w5 := set_proc (set_data w4 ino (over (lock_data (p_pid p)) (w_data w4 ino))) i (goto p1 PRename)).
  assert (E4 : step1 w4 (mkLab i EOk t) = w5) by (rewrite (step_ok_eq w4 i (goto p1 (PWrite ino)) t (proc_set _ _ _)) by auto; auto).
  rewrite E4.
  set (w6 := set_proc (set_ldir w5 (dset (dset (w_dir w5) T None) (lock_name (acq_name p)) (Some ino))) i (goto p1 PMark)).
  assert (E5 : step1 w5 (mkLab i EOk t) = w6).
  { rewrite (step_ok_eq w5 i (goto p1 PRename) t (proc_set _ _ _)) by auto. apply (act_rename w5 i (goto p1 PRename) t ino); [auto|exact D3|exact L3]. }
  rewrite E5. set (p7 := set_has (goto (goto p1 PMark) PWork) true).
  assert (E6 : step1 w6 (mkLab i EOk t) = set_proc w6 i p7) by (rewrite (step_ok_eq w6 i (goto p1 PMark) t (proc_set _ _ _)) by auto; auto).
  rewrite E6. split; [exists p7; split; [apply proc_set|]; split; [reflexivity|constructor]|]. split; [exists p7; split; [apply proc_set|auto]|].
  split; [intros q HQ; rewrite proc_set in HQ; injection HQ as <-; auto|]. exists ino. split.
  - cbn [set_proc w_dir]. unfold w6. cbn [set_proc set_ldir w_dir]. apply dset_same.
  - intros X. unfold w6, w5. cbn [set_proc set_ldir set_data w_data]. rewrite Nat.eqb_refl.
    replace (w_data w4 ino) with (@nil Z) by (symmetry; apply B3; exact X). unfold over, lock_data. rewrite skipn_nil, app_nil_r. auto.
Qed.
Print Assumptions lock_works.
Definition ready : world := world_of [] [] [mkProc Other NMA NMA 1234 0 false PLock].
Example lock_works_ex : ~ locked ready NMA /\
  (let w := runs ready (repeat (mkLab 0 EOk 5) 6) in
   match w_dir w [46; 102; 115; 46; 108; 111; 99; 107] with Some ino => w_data w ino | None => [] end) = [49; 50; 51; 52; 10].
Proof. split; [intros X; apply X; reflexivity|vm_compute; reflexivity]. Qed.

(* C60: when the lock file is there, ten looks at it end the command, and it leaves the
   repository as it was *)
Theorem lock_refused : forall w i p t, w_procs w i = Some p -> p_pc p = PWait 0 -> p_has p = false -> short (acq_name p) -> locked w (acq_name p) ->
  let w' := runs w (repeat (mkLab i EOk t) 10) in
  at_pc w' i PDied /\ (forall n, w_dir w' n = w_dir w n) /\ w_refs w' = w_refs w.
Proof.
  intros w i p t HP HC HH HS HL. cbv zeta. unfold locked in HL. rewrite <- lock_eq in * by auto.
  assert (G : forall k w0 q j, w_procs w0 i = Some q -> p_pc q = PWait j -> (k + j = 10)%nat -> (0 < k)%nat -> p_has q = false -> w_dir w0 (lock_name (acq_name q)) <> None ->
     at_pc (runs w0 (repeat (mkLab i EOk t) k)) i PDied /\ (forall n, w_dir (runs w0 (repeat (mkLab i EOk t) k)) n = w_dir w0 n) /\ w_refs (runs w0 (repeat (mkLab i EOk t) k)) = w_refs w0).
  { induction k as [|k IH]; intros w0 q j H1 H2 H3 H4 H5 H6; [lia|]. cbn [repeat runs].
    rewrite (step_ok_eq w0 i q t H1) by (rewrite H2; auto). unfold act. rewrite H2. destruct (w_dir w0 (lock_name (acq_name q))) as [x|] eqn:ED; [|congruence].
    destruct (Nat.ltb (S j) 10) eqn:EL.
    - apply Nat.ltb_lt in EL. destruct (IH (set_proc w0 i (goto q (PWait (S j)))) (goto q (PWait (S j))) (S j) (proc_set _ _ _) eq_refl) as (A & B & C); [lia|lia|auto| |auto].
      cbn [set_proc w_dir]. unfold acq_name in *. cbn [goto p_cmd p_ar p_name]. rewrite ED. discriminate.
    - apply Nat.ltb_ge in EL. assert (k = 0)%nat by lia. subst k. cbn [repeat runs]. unfold at_exit. rewrite H5. split; [|auto]. exists (goto q PDied). split; [apply proc_set|auto]. }
  apply (G 10%nat w p 0%nat); auto; lia.
Qed.
Print Assumptions lock_refused.
Definition taken : world := world_of [lock_file NMA] [] [mkProc Other NMA NMA 1234 0 false (PWait 0)].
Example lock_refused_ex : locked taken NMA /\ at_pc (runs taken (repeat (mkLab 0 EOk 5) 10)) 0 PDied.
Proof. split; [unfold locked; vm_compute; discriminate|]. exists (mkProc Other NMA NMA 1234 0 false PDied). split; vm_compute; reflexivity. Qed.

(* C60: mkfs and restore never replace a boot-ref that is there before they start *)
Theorem mkfs_kept : forall w ls n k, starting w -> w_refs w n = Some k -> w_refs (runs w ls) n = Some k.
Proof.
  intros w ls n k HS HR. assert (HK : kept_ref n k w).
  { split; [auto|]. intros i p HP _ _. destruct (HS _ _ HP) as (H1 & H2 & _). split; [unfold past; rewrite H1; exact I|auto]. }
  apply (runs_ref n k ls w HK).
Qed.
Print Assumptions mkfs_kept.
Definition has_fs : world := world_of [] [(NMA, 50%nat)] [job Mkfs NMA NMA 7; job Restore NMA NMB 8; job Mkfs NMB NMB 9].
Example mkfs_kept_ex : starting has_fs /\ w_refs has_fs NMA = Some 50%nat /\
  (let w := runs has_fs (oks (times 12 0 ++ times 12 1 ++ times 12 2)) in w_refs w NMA = Some 50%nat /\ w_refs w NMB = Some 2%nat /\ at_pc w 0 PDied).
Proof.
  split; [starts|]. split; [reflexivity|]. cbv zeta. split; [vm_compute; reflexivity|]. split; [vm_compute; reflexivity|].
  exists (mkProc Mkfs NMA NMA 7 0 false PDied). split; vm_compute; reflexivity.
Qed.

(* C60, where it falls short: a lock file that no command has stays for ever, and nobody gets
   the lock again; nobody looks whether the process in it still runs *)
Theorem lock_stale : forall w ls n, starting w -> no_restore w -> always calm w ls -> short n -> locked w n ->
  locked (runs w ls) n /\ forall i, ~ holds (runs w ls) i n.
Proof.
  intros w ls n HS HN HA HL HF. pose proof (start_ok w HS HN) as HW. unfold locked in *. rewrite <- lock_eq in * by auto.
  apply runs_stale; auto. split; [auto|]. intros i (p & H1 & _ & H3). destruct (HS _ _ H1) as [E _]. rewrite E in H3. inversion H3.
Qed.
Print Assumptions lock_stale.
Definition stuck : world := world_of [lock_file NMA] [] [job Other NMA NMA 7; job Other NMB NMB 8].
Example lock_stale_ex : starting stuck /\ no_restore stuck /\ locked stuck NMA /\
  always calm stuck (oks (times 12 0 ++ times 12 1)) /\ at_pc (runs stuck (oks (times 12 0 ++ times 12 1))) 1 PEnd.
Proof.
  split; [starts|]. split; [plain|]. split; [unfold locked; vm_compute; discriminate|]. split; [apply always_calm; apply oks_calm; apply oks_ok|].
  exists (mkProc Other NMB NMB 8 5 false PEnd). split; vm_compute; reflexivity.
Qed.

(* C60: a command that is killed leaves its lock file *)
Theorem lock_killed_refuted : exists w ls n, starting w /\ no_restore w /\ always calm w ls /\ ~ locked w n /\
  locked (runs w ls) n /\ forall i p, w_procs (runs w ls) i = Some p -> ended (p_pc p) = true.
Proof.
  exists (world_of [] [] [job Other NMA NMA 7]), (oks (times 7 0) ++ [mkLab 0 EKill 6]), NMA. split; [starts|]. split; [plain|].
  split; [vm_compute; repeat split; intros X; discriminate|]. split; [intros X; apply X; reflexivity|]. split; [unfold locked; vm_compute; discriminate|].
  intros i p H. destruct i as [|i]; [vm_compute in H; injection H as <-; reflexivity|]. vm_compute in H. destruct i; discriminate.
Qed.
Print Assumptions lock_killed_refuted.

(* C60: a restore that succeeds, alone and with no call failing, leaves the lock file of its
   archive behind: it releases the lock of the name it made *)
Theorem restore_left_refuted : exists w ls n, starting w /\ all_ok ls /\ ~ locked w n /\
  locked (runs w ls) n /\ forall i p, w_procs (runs w ls) i = Some p -> p_pc p = PEnd.
Proof.
  exists (world_of [] [] [job Restore NMA NMB 7]), (oks (times 12 0)), NMB. split; [starts|]. split; [apply oks_ok|].
  split; [intros X; apply X; reflexivity|]. split; [unfold locked; vm_compute; discriminate|].
  intros i p H. destruct i as [|i]; [vm_compute in H; injection H as <-; reflexivity|]. vm_compute in H. destruct i; discriminate.
Qed.
Print Assumptions restore_left_refuted.
(* C60: .. and so restores remove the lock of a mkfs at work: two commands have the lock of one
   name, with no call failing *)
Theorem restore_breaks_refuted : exists w ls i j n, starting w /\ all_ok ls /\ i <> j /\
  holds (runs w ls) i n /\ holds (runs w ls) j n.
Proof.
  exists (world_of [] [] [job Mkfs NMA NMA 7; job Restore NMA NMB 8; job Other NMA NMA 9]).
  exists (oks ([1%nat] ++ times 7 0 ++ times 11 1 ++ times 7 2)), 0%nat, 2%nat, NMA. split; [starts|]. split; [apply oks_ok|]. split; [discriminate|]. split.
  - exists (mkProc Mkfs NMA NMA 7 5 true PWork). split; [vm_compute; reflexivity|]. split; [reflexivity|constructor].
  - exists (mkProc Other NMA NMA 9 5 true PWork). split; [vm_compute; reflexivity|]. split; [reflexivity|constructor].
Qed.
Print Assumptions restore_breaks_refuted.

(* C60: a signal that ends a command just after it removed its lock file makes it remove the
   lock file of another one *)
Theorem lock_signal_refuted : exists w ls i j n, starting w /\ no_restore w /\ (forall l, In l ls -> l_ev l = EOk \/ l_ev l = ETerm) /\ i <> j /\
  holds (runs w ls) i n /\ holds (runs w ls) j n.
Proof.
  exists (world_of [] [] [job Other NMA NMA 7; job Other NMA NMA 8; job Other NMA NMA 9]).
  exists (oks (times 11 0 ++ times 7 1) ++ [mkLab 0 ETerm 6] ++ oks (times 4 0 ++ times 7 2)), 1%nat, 2%nat, NMA.
  split; [starts|]. split; [plain|]. split.
  { intros l H. apply in_app_iff in H. destruct H as [H|H].
    - left. pose proof (oks_ok (times 11 0 ++ times 7 1)) as X. unfold all_ok in X. rewrite Forall_forall in X. auto.
    - apply in_app_iff in H. destruct H as [[<- |[]]|H]; [auto|]. left. pose proof (oks_ok (times 4 0 ++ times 7 2)) as X. unfold all_ok in X. rewrite Forall_forall in X. auto. }
  split; [discriminate|]. split.
  - exists (mkProc Other NMA NMA 8 5 true PWork). split; [vm_compute; reflexivity|]. split; [reflexivity|constructor].
  - exists (mkProc Other NMA NMA 9 5 true PWork). split; [vm_compute; reflexivity|]. split; [reflexivity|constructor].
Qed.
Print Assumptions lock_signal_refuted.

(* C60: mkfs looks for the name before it has the lock: two of them make the same file system,
   both succeed, and the boot-ref of the first is gone *)
Theorem mkfs_twice_refuted : exists w ls1 ls2 i j n, starting w /\ no_restore w /\ all_ok (ls1 ++ ls2) /\ i <> j /\
  w_refs (runs w ls1) n = Some i /\ w_refs (runs w (ls1 ++ ls2)) n = Some j /\
  at_pc (runs w (ls1 ++ ls2)) i PEnd /\ at_pc (runs w (ls1 ++ ls2)) j PEnd.
Proof.
  exists (world_of [] [] [job Mkfs NMA NMA 7; job Mkfs NMA NMA 8]), (oks ([1%nat] ++ times 12 0)), (oks (times 11 1)), 0%nat, 1%nat, NMA.
  split; [starts|]. split; [plain|]. split; [apply Forall_app; split; apply oks_ok|]. split; [discriminate|].
  split; [vm_compute; reflexivity|]. split; [vm_compute; reflexivity|]. split.
  - exists (mkProc Mkfs NMA NMA 7 5 false PEnd). split; vm_compute; reflexivity.
  - exists (mkProc Mkfs NMA NMA 8 5 false PEnd). split; vm_compute; reflexivity.
Qed.
Print Assumptions mkfs_twice_refuted.

(* C60: commands that start in the same second share their temporary file: one is refused though
   nobody has the lock and there is no lock file *)
Theorem lock_denied_refuted : exists w ls i n, starting w /\ no_restore w /\ all_ok ls /\
  at_pc (runs w ls) i PRename /\ ~ locked (runs w ls) n /\ (forall j, ~ holds (runs w ls) j n) /\
  at_pc (runs w (ls ++ oks [i; i])) i PDied.
Proof.
  exists (world_of [] [] [job Other NMA NMA 7; job Other NMA NMA 8]), (oks (times 4 0 ++ times 5 1 ++ times 8 0)), 1%nat, NMA.
  split; [starts|]. split; [plain|]. split; [apply oks_ok|].
  split; [exists (mkProc Other NMA NMA 8 5 false PRename); split; vm_compute; reflexivity|]. split; [intros X; apply X; vm_compute; reflexivity|]. split.
  - intros j (p & H1 & _ & H3). destruct j as [|[|j]]; vm_compute in H1; [injection H1 as <-; inversion H3|injection H1 as <-; inversion H3|destruct j; discriminate].
  - exists (mkProc Other NMA NMA 8 5 false PDied). split; vm_compute; reflexivity.
Qed.
Print Assumptions lock_denied_refuted.
(* C60: .. and the lock file names a process that does not have the lock *)
Theorem lock_pid_refuted : exists w ls i j p q n ino, starting w /\ no_restore w /\ all_ok ls /\ i <> j /\
  holds (runs w ls) i n /\ w_procs (runs w ls) i = Some p /\ w_procs (runs w ls) j = Some q /\ p_pid p <> p_pid q /\
  w_dir (runs w ls) (lock_file n) = Some ino /\ w_data (runs w ls) ino = print_d (p_pid q) ++ [10].
Proof.
  exists (world_of [] [] [job Other NMA NMA 7; job Other NMA NMA 8]), (oks (times 5 0 ++ times 5 1 ++ times 2 0)), 0%nat, 1%nat.
  exists (mkProc Other NMA NMA 7 5 true PWork), (mkProc Other NMA NMA 8 5 false PRename), NMA, 0%nat.
  split; [starts|]. split; [plain|]. split; [apply oks_ok|]. split; [discriminate|].
  split; [exists (mkProc Other NMA NMA 7 5 true PWork); split; [vm_compute; reflexivity|split; [reflexivity|constructor]]|].
  split; [vm_compute; reflexivity|]. split; [vm_compute; reflexivity|]. split; [discriminate|]. split; vm_compute; reflexivity.
Qed.
Print Assumptions lock_pid_refuted.
