(* Requests: what all of them share. *)
From Verif Require Import Base IdsmapModel OperModel OperSpec.

Lemma kernel_iff : forall q, is_kernel q = true <-> from_kernel q.
Proof.
  intros q. unfold is_kernel, from_kernel. destruct (q_kwrite q); [tauto|]. destruct (Z.eqb_spec (q_pid q) 0) as [E|E]; cbn [negb].
  - rewrite andb_true_iff, !Z.eqb_eq. intuition congruence.
  - split; [discriminate|]. intros [H|H]; [discriminate|tauto].
Qed.
Lemma auth_iff : forall e q, authorize e q = true <-> may_use e q.
Proof.
  intros e q. unfold authorize, may_use. rewrite <- kernel_iff. destruct (e_online e); cbn [negb]; [|tauto]. destruct (is_kernel q); [tauto|].
  destruct (Z.eqb_spec (q_uid q) (e_owner e)); [tauto|]. destruct (e_admin e); cbn [andb].
  - destruct (Z.eqb_spec (q_uid q) 0); [tauto|]. intuition congruence.
  - intuition congruence.
Qed.
Lemma creds_iff : forall e q c, map_creds e q = Some c <-> works_as e q c.
Proof.
  intros e q c. unfold map_creds, is_admin, works_as. rewrite <- kernel_iff. destruct (e_online e); cbn [negb orb].
  - destruct (is_kernel q); [intuition congruence|]. intuition congruence.
  - intuition congruence.
Qed.

Section P.
Variable St : Type.
Variable inner : op -> step -> Z * Z -> Z * Z -> St -> inner_ret St.
Notation do_step := (do_step St inner). Notation do_steps := (do_steps St inner). Notation fs_op := (fs_op St inner).

Lemma step_log : forall e q o s x, exists cs, x_log _ (do_step e q o s x) = x_log _ x ++ cs /\ Forall is_call cs.
Proof.
  intros e q o s x.
  assert (N : exists cs, x_log _ x = x_log _ x ++ cs /\ Forall is_call cs) by (exists []; rewrite app_nil_r; auto).
  destruct s; unfold OperModel.do_step;
    try (unfold call_inner; cbn [x_log]; eexists; split; [reflexivity|constructor; [exact I|constructor]]).
  - destruct (authorize e q); auto.
  - destruct (map_creds e q); auto.
  - destruct (map_uidgid _ _ _); auto.
  - auto.
Qed.
Lemma steps_log : forall e q o l x, exists cs, x_log _ (do_steps e q o l x) = x_log _ x ++ cs /\ Forall is_call cs.
Proof.
  intros e q o. induction l as [|s l IH]; intros x; [exists []; rewrite app_nil_r; auto|]. cbn [OperModel.do_steps]. cbv zeta.
  destruct (step_log e q o s x) as (cs & E & F). destruct (x_err St (do_step e q o s x) =? 0).
  - destruct (IH (do_step e q o s x)) as (cs' & E' & F'). exists (cs ++ cs'). rewrite E', E, app_assoc. split; [auto|]. apply Forall_app; auto.
  - exists cs. split; [|auto]. destruct s; auto.
Qed.
Lemma op_log : forall e q o ids st, exists cs, x_log _ (fs_op e q o ids st) = ELock :: cs ++ [EUnlock] /\ Forall is_call cs.
Proof.
  intros e q o ids st. unfold OperModel.fs_op. cbv zeta. cbn [x_log].
  destruct (steps_log e q o (steps o) (mkExec St st [ELock] (q_uid q, q_gid q) ids None false 0)) as (cs & E & F). cbn [x_log] in E.
  match goal with |- context [if x_loose _ ?x then _ else _] => destruct (x_loose _ x) end.
  - unfold call_inner. cbn [x_log]. rewrite E. eexists (cs ++ [_]). rewrite <- !app_assoc. cbn [app]. split; [reflexivity|]. apply Forall_app. split; [auto|]. constructor; [exact I|constructor].
  - cbn [failed x_log]. rewrite E. exists cs. auto.
Qed.
Lemma lock_calls : forall cs r, Forall is_call cs -> lock_ok true (cs ++ r) = lock_ok true r.
Proof.
  induction cs as [|c cs IH]; intros r H; [auto|]. pose proof (Forall_inv H) as HC. apply Forall_inv_tail in H. destruct c; cbn [is_call] in HC; try tauto. cbn [app lock_ok andb]. auto.
Qed.
Lemma lock_op : forall e q o ids st r, lock_ok false (x_log _ (fs_op e q o ids st) ++ r) = lock_ok false r.
Proof.
  intros e q o ids st r. destruct (op_log e q o ids st) as (cs & E & F). rewrite E. cbn [app lock_ok negb andb]. rewrite <- app_assoc, lock_calls by auto. auto.
Qed.
Lemma lock_ops : forall e q ids os st, lock_ok false (x_log _ (fs_ops St inner e q os ids st)) = true.
Proof.
  intros e q ids. induction os as [|o os IH]; intros st; [auto|]. cbn [fs_ops]. cbv zeta. destruct (negb _).
  - rewrite <- (app_nil_r (x_log _ _)), lock_op. auto.
  - cbn [x_log]. rewrite lock_op. auto.
Qed.

Lemma auth_first : forall o, o <> Maintain -> exists l, steps o = SAuth :: SMap :: l /\ ~ In SMap l /\ ~ In SAuth l.
Proof.
  intros o H. destruct o; try congruence; (eexists; split; [reflexivity|]); split; intros HI; cbn [In] in HI; repeat (destruct HI as [HI|HI]; [discriminate|]); auto.
Qed.
Lemma op_no : forall e q o ids st, o <> Maintain -> authorize e q = false \/ map_creds e q = None ->
  fs_op e q o ids st = mkExec St st [ELock; EUnlock] (q_uid q, q_gid q) ids None false EPERM.
Proof.
  intros e q o ids st HM H. destruct (auth_first o HM) as (l & EL & _). unfold OperModel.fs_op. rewrite EL. cbn [OperModel.do_steps]. cbv zeta.
  change (do_step e q o SAuth (mkExec St st [ELock] (q_uid q, q_gid q) ids None false 0)) with
    (if authorize e q then mkExec St st [ELock] (q_uid q, q_gid q) ids None false 0 else failed St (mkExec St st [ELock] (q_uid q, q_gid q) ids None false 0) EPERM).
  destruct (authorize e q); [|auto]. cbn [x_err Z.eqb]. unfold OperModel.do_step. destruct H as [H|H]; [discriminate|]. rewrite H. auto.
Qed.

(* credentials *)
Definition as_cred (c : Z * Z) (ev : event) : Prop := match ev with ECall _ _ c' _ _ => c' = c | _ => True end.
Lemma step_cred : forall e q o s x, s <> SMap -> x_cred _ (do_step e q o s x) = x_cred _ x /\
  (Forall (as_cred (x_cred _ x)) (x_log _ x) -> Forall (as_cred (x_cred _ x)) (x_log _ (do_step e q o s x))).
Proof.
  intros e q o s x H. destruct s; try congruence; unfold OperModel.do_step;
    try (unfold call_inner; cbn [x_log x_cred]; split; [auto|]; intros F; apply Forall_app; split; [auto|]; constructor; [exact eq_refl|constructor]).
  - destruct (authorize e q); auto.
  - destruct (map_uidgid _ _ _); auto.
  - auto.
Qed.
Lemma steps_cred : forall e q o l x, ~ In SMap l -> x_cred _ (do_steps e q o l x) = x_cred _ x /\
  (Forall (as_cred (x_cred _ x)) (x_log _ x) -> Forall (as_cred (x_cred _ x)) (x_log _ (do_steps e q o l x))).
Proof.
  intros e q o. induction l as [|s l IH]; intros x H; [auto|]. cbn [OperModel.do_steps]. cbv zeta.
  destruct (step_cred e q o s x) as [E F]; [intros ->; apply H; left; auto|]. destruct (x_err St (do_step e q o s x) =? 0).
  - destruct (IH (do_step e q o s x)) as [E' F']; [intros HI; apply H; right; auto|]. rewrite E in *. auto.
  - destruct s; auto.
Qed.
Lemma start : forall e q o l st ids c, authorize e q = true -> map_creds e q = Some c ->
  do_steps e q o (SAuth :: SMap :: l) (mkExec St st [ELock] (q_uid q, q_gid q) ids None false 0) = do_steps e q o l (mkExec St st [ELock] c ids None false 0).
Proof.
  intros e q o l st ids c HA HC. remember (mkExec St st [ELock] (q_uid q, q_gid q) ids None false 0) as X eqn:EX.
  assert (A : do_step e q o SAuth X = X) by (unfold OperModel.do_step; rewrite HA; auto).
  assert (B : do_step e q o SMap X = mkExec St st [ELock] c ids None false 0) by (unfold OperModel.do_step; rewrite HC; subst X; auto).
  assert (X0 : x_err _ X = 0) by (subst X; auto).
  cbn [OperModel.do_steps]. cbv zeta. rewrite A, X0. cbn [Z.eqb]. rewrite B. auto.
Qed.
Lemma op_cred : forall e q o ids st c, o <> Maintain -> authorize e q = true -> map_creds e q = Some c ->
  Forall (as_cred c) (x_log _ (fs_op e q o ids st)).
Proof.
  intros e q o ids st c HM HA HC. destruct (auth_first o HM) as (l & EL & HN & _). unfold OperModel.fs_op. rewrite EL. rewrite (start e q o l st ids c HA HC). cbv zeta.
  destruct (steps_cred e q o l (mkExec St st [ELock] c ids None false 0) HN) as [E F]. cbn [x_cred x_log] in E, F. assert (F0 : Forall (as_cred c) [ELock]) by (constructor; [exact I|constructor]). specialize (F F0).
  match goal with |- context [if x_loose _ ?x then _ else _] => destruct (x_loose _ x) end.
  - unfold call_inner. cbn [x_log]. rewrite E. apply Forall_app. split; [|constructor; [exact I|constructor]]. apply Forall_app. split; [auto|]. constructor; [exact eq_refl|constructor].
  - cbn [failed x_log]. apply Forall_app. split; [auto|constructor; [exact I|constructor]].
Qed.

(* errors *)
Lemma first_app : forall a b, first_err (a ++ b) = if first_err a =? 0 then first_err b else first_err a.
Proof.
  induction a as [|ev a IH]; intros b; [auto|]. cbn [app]. destruct ev as [| |o s c d err]; cbn [first_err]; auto. destruct s; auto; destruct (Z.eqb_spec err 0) as [E|E]; auto; destruct (Z.eqb_spec err 0); congruence.
Qed.
Definition checks (s : step) : bool := match s with SAuth | SMap | SMapIds => true | _ => false end.
Lemma step_err : forall e q o s x, checks s = false -> s <> SCache -> x_err _ x = 0 -> first_err (x_log _ x) = 0 ->
  first_err (x_log _ (do_step e q o s x)) = x_err _ (do_step e q o s x).
Proof.
  intros e q o s x HC HN HE HF. destruct s; try discriminate; try congruence; unfold OperModel.do_step; try (unfold call_inner; cbn [x_log x_err]; rewrite first_app, HF; cbn [Z.eqb first_err];
    match goal with |- (if ?z =? 0 then _ else _) = _ => destruct (Z.eqb_spec z 0); congruence end).
  cbn [x_log x_err]. auto.
Qed.
Lemma steps_err : forall e q o l x, Forall (fun s => checks s = false) l -> x_err _ x = 0 -> first_err (x_log _ x) = 0 ->
  first_err (x_log _ (do_steps e q o l x)) = x_err _ (do_steps e q o l x).
Proof.
  intros e q o. induction l as [|s l IH]; intros x HC HE HF; [cbn [OperModel.do_steps]; congruence|]. cbn [OperModel.do_steps]. cbv zeta.
  pose proof (Forall_inv HC) as H1. apply Forall_inv_tail in HC.
  assert (D : s = SCache \/ s <> SCache) by (destruct s; auto; right; discriminate). destruct D as [->|D].
  - assert (HF' : first_err (x_log _ (do_step e q o SCache x)) = 0) by (unfold OperModel.do_step, call_inner; cbn [x_log]; rewrite first_app, HF; auto).
    destruct (Z.eqb_spec (x_err St (do_step e q o SCache x)) 0) as [E|E]; [apply IH; auto|]. cbn [failed x_log x_err]. auto.
  - pose proof (step_err e q o s x H1 D HE HF) as HS. destruct (Z.eqb_spec (x_err St (do_step e q o s x)) 0) as [E|E].
    + apply IH; [auto|auto|congruence].
    + destruct s; auto; congruence.
Qed.
Lemma op_err : forall e q o ids st, o <> Maintain -> authorize e q = true -> (exists c, map_creds e q = Some c) ->
  (o = Chown -> map_uidgid (e_ids e) (fst ids) (snd ids) <> None) ->
  x_err _ (fs_op e q o ids st) = first_err (x_log _ (fs_op e q o ids st)).
Proof.
  intros e q o ids st HM HA [c HC] HI.
  assert (L : exists l d, do_steps e q o (steps o) (mkExec St st [ELock] (q_uid q, q_gid q) ids None false 0) = do_steps e q o l (mkExec St st [ELock] c d None false 0) /\
    Forall (fun s => checks s = false) l).
  { destruct (map_uidgid (e_ids e) (fst ids) (snd ids)) as [d|] eqn:EI.
    - destruct o; try congruence; cbn [steps]; rewrite (start e q _ _ st ids c HA HC); try (eexists _, _; split; [reflexivity|repeat constructor]; fail).
      exists [SMut; SFlush; SDo; SAttr; SRmap], d. split; [|repeat constructor].
      assert (B : do_step e q Chown SMapIds (mkExec St st [ELock] c ids None false 0) = mkExec St st [ELock] c d None false 0) by (unfold OperModel.do_step; cbn [x_ids]; rewrite EI; auto).
      change (do_steps e q Chown [SMapIds; SMut; SFlush; SDo; SAttr; SRmap] (mkExec St st [ELock] c ids None false 0)) with
        (let x' := do_step e q Chown SMapIds (mkExec St st [ELock] c ids None false 0) in if x_err _ x' =? 0 then do_steps e q Chown [SMut; SFlush; SDo; SAttr; SRmap] x' else x').
      cbv zeta. rewrite B. auto.
    - assert (HO : o <> Chown) by (intros ->; apply HI; auto).
      destruct o; try congruence; cbn [steps]; rewrite (start e q _ _ st ids c HA HC); eexists _, _; (split; [reflexivity|repeat constructor]). }
  destruct L as (l & d & EL & HL). unfold OperModel.fs_op. rewrite EL. cbv zeta. cbn [x_err x_log].
  pose proof (steps_err e q o l (mkExec St st [ELock] c d None false 0) HL eq_refl eq_refl) as HS.
  remember (do_steps e q o l (mkExec St st [ELock] c d None false 0)) as x eqn:EX. clear EX.
  rewrite first_app. cbn [first_err]. destruct (x_loose _ x).
  - unfold call_inner. cbn [x_log x_err]. rewrite first_app, HS. cbn [first_err]. destruct (Z.eqb_spec (x_err _ x) 0) as [E|E].
    + destruct (Z.eqb_spec (i_err (inner o SLoose (x_cred St x) (x_ids St x) (x_st St x))) 0) as [E2|E2]; [rewrite E2; auto|].
      destruct (Z.eqb_spec (i_err (inner o SLoose (x_cred St x) (x_ids St x) (x_st St x))) 0); congruence.
    + destruct (Z.eqb_spec (x_err _ x) 0); congruence.
  - cbn [failed x_log x_err]. rewrite HS. destruct (Z.eqb_spec (x_err _ x) 0); congruence.
Qed.

(* ids in the answer *)
Definition good_out (e : env) (o : op) (r : option (Z * Z)) : Prop :=
  exists c d s, i_err (inner o SAttr c d s) = 0 /\ r = Some (rmap_stat e (i_ids (inner o SAttr c d s))).
Lemma steps_app : forall e q o a b x, x_err _ (do_steps e q o (a ++ b) x) = 0 -> Forall (fun s => s <> SCache) a -> x_err _ x = 0 ->
  exists y, do_steps e q o (a ++ b) x = do_steps e q o b y /\ x_err _ y = 0.
Proof.
  intros e q o. induction a as [|s a IH]; intros b x H HN HX; [exists x; auto|]. cbn [app OperModel.do_steps] in *. cbv zeta in *.
  pose proof (Forall_inv HN) as H1. apply Forall_inv_tail in HN. destruct (Z.eqb_spec (x_err St (do_step e q o s x)) 0) as [E|E].
  - apply IH; auto.
  - exfalso. destruct s; try congruence; auto.
Qed.
Lemma attr_last : forall o, In SAttr (steps o) -> exists a, steps o = a ++ [SAttr; SRmap] /\ Forall (fun s => s <> SCache) a.
Proof.
  intros o H. destruct o; cbn [steps In] in H; try (repeat (destruct H as [H|H]; [discriminate H|]); tauto); cbn [steps];
  match goal with
  | |- exists a, [?s1; ?s2; ?s3; SAttr; SRmap] = _ /\ _ => exists [s1; s2; s3]
  | |- exists a, [?s1; ?s2; ?s3; ?s4; SAttr; SRmap] = _ /\ _ => exists [s1; s2; s3; s4]
  | |- exists a, [?s1; ?s2; ?s3; ?s4; ?s5; SAttr; SRmap] = _ /\ _ => exists [s1; s2; s3; s4; s5]
  | |- exists a, [?s1; ?s2; ?s3; ?s4; ?s5; ?s6; SAttr; SRmap] = _ /\ _ => exists [s1; s2; s3; s4; s5; s6]
  | |- exists a, [?s1; ?s2; ?s3; ?s4; ?s5; ?s6; ?s7; SAttr; SRmap] = _ /\ _ => exists [s1; s2; s3; s4; s5; s6; s7]
  end; (split; [reflexivity|repeat constructor; discriminate]).
Qed.
Lemma op_out : forall e q o ids st, In SAttr (steps o) -> x_err _ (fs_op e q o ids st) = 0 -> good_out e o (x_out _ (fs_op e q o ids st)).
Proof.
  intros e q o ids st HI H. destruct (attr_last o HI) as (a & EA & HN). unfold OperModel.fs_op in *. cbv zeta in *. cbn [x_err x_out] in *. rewrite EA in *.
  remember (mkExec St st [ELock] (q_uid q, q_gid q) ids None false 0) as x0 eqn:E0.
  assert (HX : x_err _ (do_steps e q o (a ++ [SAttr; SRmap]) x0) = 0) by (destruct (Z.eqb_spec (x_err _ (do_steps e q o (a ++ [SAttr; SRmap]) x0)) 0); congruence).
  assert (HO : forall x, x_out _ (if x_loose _ x then call_inner St inner o SLoose x else failed St x 0) = x_out _ x) by (intros x; destruct (x_loose _ x); auto).
  rewrite HO. destruct (steps_app e q o a [SAttr; SRmap] x0 HX HN) as (y & EY & HY); [subst x0; auto|]. rewrite EY in *.
  cbn [OperModel.do_steps] in *. cbv zeta in *. unfold OperModel.do_step in *. unfold call_inner in *. cbn [x_err x_st x_log x_cred x_ids x_out x_loose] in *.
  destruct (Z.eqb_spec (i_err (inner o SAttr (x_cred St y) (x_ids St y) (x_st St y))) 0) as [E|E].
  - cbn [x_out option_map Z.eqb]. exists (x_cred St y), (x_ids St y), (x_st St y). auto.
  - cbn [x_err] in HX. congruence.
Qed.
End P.
