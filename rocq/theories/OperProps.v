(* C62: who is served, as whom, and what is answered. *)
From Verif Require Import Base IdsmapModel OperModel OperSpec OperProofs.

Lemma not_maintain : forall code v iter i os, fuse_ops code v iter i = Some os -> ~ In Maintain os.
Proof.
  intros code v iter i os H HI. unfold fuse_ops in H.
  repeat match type of H with context [match ?z with _ => _ end] => is_var z; destruct z; try discriminate end;
    assert (E : exists l, l = os /\ In Maintain l) by eauto; destruct E as (l & E & HL); subst l;
    match type of H with Some ?l = _ => assert (EO : l = os) by congruence; rewrite <- EO in HI; clear - HI end;
    try (cbn [In] in HI; repeat (destruct HI as [HI|HI]; [discriminate|]); tauto).
  all: destruct v as [a b c d e]; unfold setattr_ops in HI; cbn [v_now v_mode v_idsv v_size v_times] in HI;
    destruct a, b, c, d, e; cbn [app andb negb orb In] in HI; repeat (destruct HI as [HI|HI]; [discriminate|]); tauto.
Qed.
Lemma ops_no : forall St inner e q ids os st, ~ In Maintain os -> authorize e q = false \/ map_creds e q = None ->
  x_st _ (fs_ops St inner e q os ids st) = st /\ x_out _ (fs_ops St inner e q os ids st) = None /\
  Forall (fun ev => ~ is_call ev) (x_log _ (fs_ops St inner e q os ids st)) /\ (os <> [] -> x_err _ (fs_ops St inner e q os ids st) = EPERM).
Proof.
  intros St inner e q ids os st HM H. destruct os as [|o os]; [cbn [fs_ops x_st x_out x_log x_err]; repeat split; auto; congruence|].
  cbn [fs_ops]. cbv zeta. rewrite op_no; [|intros ->; apply HM; left; auto|auto]. cbn [x_err]. change (negb (EPERM =? 0)) with true. cbv iota. cbn [x_st x_out x_log x_err].
  split; [auto|]. split; [auto|]. split; [|auto]. repeat constructor; intros F; exact F.
Qed.

(* Without leave, or without an id in the file system, a request reaches nothing of it: no call
   is made, nothing is told, nothing changes, and the answer is an error. *)
Theorem denied : forall St inner e q inited code v iter i ids st, ~ may_use e q \/ (forall c, ~ works_as e q c) ->
  let x := fuse_request St inner e q inited code v iter i ids st in
  x_st _ x = st /\ x_out _ x = None /\ Forall (fun ev => ~ is_call ev) (x_log _ x) /\ (fuse_ops code v iter i <> Some [] -> x_err _ x <> 0).
Proof.
  intros St inner e q inited code v iter i ids st H. cbv zeta.
  assert (H' : authorize e q = false \/ map_creds e q = None).
  { destruct H as [H|H].
    - left. destruct (authorize e q) eqn:E; [|auto]. apply auth_iff in E. tauto.
    - right. destruct (map_creds e q) as [c|] eqn:E; [|auto]. apply creds_iff in E. destruct (H c E). }
  unfold fuse_request. destruct (fuse_ops code v iter i) as [os|] eqn:EO.
  - destruct (negb inited && negb (code =? 26)); [cbn [x_st x_out x_log x_err]; repeat split; auto; discriminate|].
    destruct (inited && (code =? 26)); [cbn [x_st x_out x_log x_err]; repeat split; auto; discriminate|].
    destruct (ops_no St inner e q ids os st (not_maintain _ _ _ _ _ EO) H') as (A & B & C & D). split; [auto|]. split; [auto|]. split; [auto|].
    intros HN. rewrite D; [discriminate|]. intros ->. apply HN. auto.
  - cbn [x_st x_out x_log x_err]. repeat split; auto. discriminate.
Qed.
(* a file system of user 1000; users 1000 and 1001 are 5 and 6 in it *)
Definition env1 (other : bool) : env := mkEnv true 1000 false other (idsmap_load 8 [(1000, 5); (1001, 6)] [(100, 50)] false).
Definition q0 : valid := mkValid false false false false false.
(* contents: names; unlink takes one away, everything else succeeds *)
Definition inner1 : op -> step -> Z * Z -> Z * Z -> list Z -> inner_ret (list Z) :=
  fun o s c d st => match o, s with
                    | Unlink, SDo => mkRet (tl st) 0 (0, 0) true
                    | _, SLoose => mkRet st (-1028) (0, 0) false
                    | _, _ => mkRet st 0 (5, 50) false
                    end.
Example ex_denied :
  ~ may_use (env1 false) (mkReq false 77 1001 100) /\
  fuse_request _ inner1 (env1 false) (mkReq false 77 1001 100) true 10 q0 false IOther (0, 0) [1; 2] = mkExec _ [1; 2] [ELock; EUnlock] (1001, 100) (0, 0) None false EPERM /\
  fuse_request _ inner1 (env1 true) (mkReq false 77 1002 100) true 10 q0 false IOther (0, 0) [1; 2] = mkExec _ [1; 2] [ELock; EUnlock] (1002, 100) (0, 0) None false EPERM /\
  fuse_request _ inner1 (env1 true) (mkReq false 77 1000 100) false 10 q0 false IOther (0, 0) [1; 2] = mkExec _ [1; 2] [] (1000, 100) (0, 0) None false EIO.
Proof.
  split; [|vm_compute; repeat split; reflexivity]. unfold may_use, from_kernel, env1. cbn [e_online e_owner e_admin e_other q_uid q_pid q_gid q_kwrite]. intros H. intuition (try discriminate; try lia).
Qed.
Print Assumptions denied.

(* Before the connection is set up no request but INIT is served, and INIT only once. *)
Theorem before_init : forall St inner e q inited code v iter i ids st, inited = false /\ code <> 26 \/ inited = true /\ code = 26 ->
  let x := fuse_request St inner e q inited code v iter i ids st in x_st _ x = st /\ x_out _ x = None /\ x_log _ x = [] /\ x_err _ x <> 0.
Proof.
  intros St inner e q inited code v iter i ids st H. cbv zeta. unfold fuse_request.
  assert (HB : negb inited && negb (code =? 26) = true \/ inited && (code =? 26) = true).
  { destruct H as [[-> H]|[-> H]]; [left|right]; cbn [negb andb]; lia. }
  destruct (fuse_ops code v iter i) as [os|]; [|cbn [x_st x_out x_log x_err]; repeat split; auto; discriminate].
  destruct (negb inited && negb (code =? 26)); [cbn [x_st x_out x_log x_err]; repeat split; auto; discriminate|].
  destruct HB as [HB|HB]; [discriminate|]. rewrite HB. cbn [x_st x_out x_log x_err]. repeat split; auto. discriminate.
Qed.
Example ex_before_init :
  fuse_request _ inner1 (env1 true) (mkReq false 77 1000 100) false 11 q0 false IOther (0, 0) [1; 2] = mkExec _ [1; 2] [] (1000, 100) (0, 0) None false EIO /\
  fuse_request _ inner1 (env1 true) (mkReq false 0 0 0) true 26 q0 false IOther (0, 0) [1; 2] = mkExec _ [1; 2] [] (0, 0) (0, 0) None false EIO /\
  x_err _ (fuse_request _ inner1 (env1 true) (mkReq false 0 0 0) false 26 q0 false IOther (0, 0) [1; 2]) = 0.
Proof. vm_compute. repeat split; reflexivity. Qed.
Print Assumptions before_init.

(* Every call that a request makes is made with leave, and as the user that the caller is in
   the file system. *)
Theorem served_as : forall St inner e q inited code v iter i ids st,
  Forall (fun ev => match ev with ECall _ _ c _ _ => may_use e q /\ works_as e q c | _ => True end) (x_log _ (fuse_request St inner e q inited code v iter i ids st)).
Proof.
  intros St inner e q inited code v iter i ids st. unfold fuse_request. destruct (fuse_ops code v iter i) as [os|] eqn:EO; [|constructor].
  destruct (negb inited && negb (code =? 26)); [constructor|]. destruct (inited && (code =? 26)); [constructor|]. apply not_maintain in EO.
  destruct (authorize e q) eqn:EA; [destruct (map_creds e q) as [c|] eqn:EC|].
  - apply Forall_impl with (P := as_cred c).
    { intros ev H. destruct ev; auto. cbn [as_cred] in H. subst cred. split; [apply auth_iff; auto|apply creds_iff; auto]. }
    clear i. revert st. induction os as [|o os IH]; intros st; [constructor|]. cbn [fs_ops]. cbv zeta.
    assert (HM : o <> Maintain) by (intros ->; apply EO; left; auto). pose proof (op_cred St inner e q o ids st c HM EA EC) as HO.
    destruct (negb _); [auto|]. cbn [x_log]. apply Forall_app. split; [auto|]. apply IH. intros HI. apply EO. right. auto.
  - destruct (ops_no St inner e q ids os st EO (or_intror EC)) as (_ & _ & H & _). eapply Forall_impl; [|exact H]. intros ev HE. destruct ev; auto. cbn [is_call] in HE. tauto.
  - destruct (ops_no St inner e q ids os st EO (or_introl EA)) as (_ & _ & H & _). eapply Forall_impl; [|exact H]. intros ev HE. destruct ev; auto. cbn [is_call] in HE. tauto.
Qed.
Example ex_served_as :
  x_log _ (fuse_request _ inner1 (env1 true) (mkReq false 77 1001 100) true 5 q0 false IOther (0, 0) []) =
    [ELock; ECall Readlink SCur (6, 50) (0, 0) 0; ECall Readlink SDo (6, 50) (0, 0) 0; EUnlock] /\
  x_log _ (fuse_request _ inner1 (env1 false) (mkReq false 0 0 0) true 18 q0 false IOther (0, 0) []) =
    [ELock; ECall Release SOpt (0, 0) (0, 0) 0; ECall Release SDo (0, 0) (0, 0) 0; EUnlock].
Proof. vm_compute. split; reflexivity. Qed.
Print Assumptions served_as.

(* A new owner is what the map gives for the one asked for; one that it does not have is never set. *)
Definition new_owner (e : env) (ids : Z * Z) (ev : event) : Prop :=
  match ev with ECall Chown SDo _ d _ => map_uidgid (e_ids e) (fst ids) (snd ids) = Some d | _ => True end.
Lemma owner_steps : forall St inner e q ids o l x, ~ In SMapIds l -> (o = Chown -> map_uidgid (e_ids e) (fst ids) (snd ids) = Some (x_ids St x)) ->
  Forall (new_owner e ids) (x_log _ x) -> Forall (new_owner e ids) (x_log _ (do_steps St inner e q o l x)).
Proof.
  intros St inner e q ids o. induction l as [|s l IH]; intros x HN HI HF; [auto|]. cbn [do_steps]. cbv zeta.
  assert (A : x_ids _ (do_step St inner e q o s x) = x_ids _ x /\ Forall (new_owner e ids) (x_log _ (do_step St inner e q o s x))).
  { destruct s; unfold do_step; try (destruct HN; left; reflexivity);
      try (unfold call_inner; cbn [x_ids x_log]; split; [auto|]; apply Forall_app; split; [auto|]; constructor; [|constructor]; cbn [new_owner]; destruct o; auto).
    - destruct (authorize e q); auto.
    - destruct (map_creds e q); auto.
    - auto. }
  destruct A as [A1 A2]. destruct (x_err St (do_step St inner e q o s x) =? 0).
  - apply IH; [intros H; apply HN; right; auto|rewrite A1; auto|auto].
  - destruct s; auto.
Qed.
Lemma owner_finish : forall St inner e ids o x, Forall (new_owner e ids) (x_log St x) ->
  Forall (new_owner e ids) (x_log _ (if x_loose _ x then call_inner St inner o SLoose x else failed _ x 0) ++ [EUnlock]).
Proof.
  intros St inner e ids o x H. apply Forall_app. split; [|constructor; [exact I|constructor]]. destruct (x_loose _ x); [|auto].
  unfold call_inner. cbn [x_log]. apply Forall_app. split; [auto|]. constructor; [|constructor]. cbn [new_owner]. destruct o; exact I.
Qed.
Lemma owner_op : forall St inner e q ids o st, Forall (new_owner e ids) (x_log _ (fs_op St inner e q o ids st)).
Proof.
  intros St inner e q ids o st.
  assert (D : o = Chown \/ o <> Chown /\ ~ In SMapIds (steps o)).
  { destruct o; auto; right; (split; [congruence|]); intros HI; cbn [steps In] in HI; repeat (destruct HI as [HI|HI]; [discriminate|]); auto. }
  assert (L0 : Forall (new_owner e ids) [ELock]) by (constructor; [exact I|constructor]).
  destruct D as [->|[D1 D2]].
  - destruct (authorize e q) eqn:EA; [destruct (map_creds e q) as [c|] eqn:EC|]; [|rewrite op_no; [constructor; [exact I|constructor; [exact I|constructor]]|discriminate|auto] ..].
    unfold fs_op. cbv zeta. cbn [x_log]. apply owner_finish. cbn [steps]. rewrite (start St inner e q Chown _ st ids c EA EC).
    match goal with |- context [do_steps _ _ _ _ _ (SMapIds :: ?l) ?x] => remember l as L eqn:EL; remember x as X eqn:EX end.
    assert (NL : ~ In SMapIds L) by (subst L; intros HI; cbn [In] in HI; repeat (destruct HI as [HI|HI]; [discriminate|]); auto).
    cbn [do_steps]. cbv zeta. unfold do_step at 1 3. assert (XI : x_ids _ X = ids) by (subst X; auto). rewrite XI.
    destruct (map_uidgid (e_ids e) (fst ids) (snd ids)) as [d|] eqn:ED.
    + cbn [x_err Z.eqb]. unfold do_step. rewrite XI, ED. apply owner_steps; [auto|intros _; exact ED|subst X; auto].
    + cbn [failed x_err]. unfold do_step. rewrite XI, ED. subst X. auto.
  - unfold fs_op. cbv zeta. cbn [x_log]. apply owner_finish. apply owner_steps; [auto|congruence|auto].
Qed.
Theorem owner_set : forall St inner e q inited code v iter i ids st,
  Forall (new_owner e ids) (x_log _ (fuse_request St inner e q inited code v iter i ids st)).
Proof.
  intros St inner e q inited code v iter i ids st. unfold fuse_request. destruct (fuse_ops code v iter i) as [os|]; [|constructor].
  destruct (negb inited && negb (code =? 26)); [constructor|]. destruct (inited && (code =? 26)); [constructor|].
  revert st. induction os as [|o os IH]; intros st; [constructor|]. cbn [fs_ops]. cbv zeta. pose proof (owner_op St inner e q ids o st) as HO.
  destruct (negb _); [auto|]. cbn [x_log]. apply Forall_app. split; [auto|apply IH].
Qed.
Example ex_owner_set :
  In (ECall Chown SDo (5, 50) (6, 50) 0) (x_log _ (fuse_request _ inner1 (env1 true) (mkReq false 77 1000 100) true 4 (mkValid false false true false false) false IOther (1001, 100) [])) /\
  x_log _ (fuse_request _ inner1 (env1 true) (mkReq false 77 1000 100) true 4 (mkValid false false true false false) false IOther (2000, 100) []) = [ELock; EUnlock].
Proof. vm_compute. split; [tauto|reflexivity]. Qed.
Print Assumptions owner_set.

(* Whatever fails, the lock of the file system is held during all calls and given back. *)
Theorem lock_back : forall St inner e q,
  (forall inited code v iter i ids st, lock_ok false (x_log _ (fuse_request St inner e q inited code v iter i ids st)) = true) /\
  (forall o ids st, lock_ok false (x_log _ (fs_op St inner e q o ids st)) = true).
Proof.
  intros St inner e q. split.
  - intros. unfold fuse_request. destruct (fuse_ops code v iter i) as [os|]; [|auto]. destruct (negb inited && _); [auto|]. destruct (inited && _); [auto|]. apply lock_ops.
  - intros. rewrite <- (app_nil_r (x_log _ _)), lock_op. auto.
Qed.
Example ex_lock_back :
  x_log _ (fs_op _ inner1 (env1 true) (mkReq false 77 1000 100) Unlink (0, 0) [1; 2]) =
    [ELock; ECall Unlink SMut (5, 50) (0, 0) 0; ECall Unlink SName (5, 50) (0, 0) 0; ECall Unlink SFlush (5, 50) (0, 0) 0; ECall Unlink SDo (5, 50) (0, 0) 0;
     ECall Unlink SLoose (5, 50) (0, 0) (-1028); EUnlock] /\
  lock_ok false [ELock; ECall Unlink SMut (5, 50) (0, 0) 0] = false /\ lock_ok false [ELock; EUnlock; ECall Unlink SMut (5, 50) (0, 0) 0] = false.
Proof. vm_compute. repeat split; reflexivity. Qed.
Print Assumptions lock_back.

(* A request with leave is answered with the error of the first call that failed, and with
   success if none did. *)
Theorem answered : forall St inner e q code v iter i ids st os c, may_use e q -> works_as e q c -> fuse_ops code v iter i = Some os -> code <> 26 ->
  (In Chown os -> map_uidgid (e_ids e) (fst ids) (snd ids) <> None) ->
  let x := fuse_request St inner e q true code v iter i ids st in x_err _ x = first_err (x_log _ x).
Proof.
  intros St inner e q code v iter i ids st os c HA HC EO H26 HI. cbv zeta. unfold fuse_request. rewrite EO. cbn [negb andb]. replace (code =? 26) with false by lia.
  apply not_maintain in EO. apply auth_iff in HA. apply creds_iff in HC. clear - HA HC EO HI. revert st. induction os as [|o os IH]; intros st; [auto|]. cbn [fs_ops]. cbv zeta.
  assert (HE : x_err _ (fs_op St inner e q o ids st) = first_err (x_log _ (fs_op St inner e q o ids st))).
  { apply op_err; [intros ->; apply EO; left; auto|auto|eauto|]. intros ->. apply HI. left. auto. }
  destruct (Z.eqb_spec (x_err _ (fs_op St inner e q o ids st)) 0) as [E|E]; cbn [negb]; [|auto]. cbn [x_err x_log]. rewrite first_app, <- HE, E. cbn [Z.eqb].
  apply IH; [intros H; apply EO; right; auto|intros H; apply HI; right; auto].
Qed.
Example ex_answered :
  x_err _ (fuse_request _ inner1 (env1 true) (mkReq false 77 1000 100) true 10 q0 false IOther (0, 0) [1; 2]) = -1028 /\
  x_err _ (fuse_request _ inner1 (env1 true) (mkReq false 77 1000 100) true 11 q0 false IOther (0, 0) [1; 2]) = 0.
Proof. vm_compute. split; reflexivity. Qed.
Print Assumptions answered.

(* The owner in an answer is the host's user and group, for ids that the map has. *)
Theorem owner_shown : forall St inner e q o ids st, In SAttr (steps o) -> x_err _ (fs_op St inner e q o ids st) = 0 ->
  exists own, (exists c d s, i_err (inner o SAttr c d s) = 0 /\ i_ids (inner o SAttr c d s) = own) /\
    (forall p, rmap_uidgid (e_ids e) (fst own) (snd own) = Some p -> x_out _ (fs_op St inner e q o ids st) = Some p).
Proof.
  intros St inner e q o ids st HI H. destruct (op_out St inner e q o ids st HI H) as (c & d & s & A & B). exists (i_ids (inner o SAttr c d s)). split; [eauto|].
  intros p HP. rewrite B. f_equal. unfold rmap_uidgid in HP. unfold rmap_stat. cbv zeta.
  destruct (res1 resolve_ftoh (im_u (e_ids e)) (im_allow (e_ids e)) (fst (i_ids (inner o SAttr c d s)))) as [e1 u'].
  destruct (res1 resolve_ftoh (im_g (e_ids e)) (im_allow (e_ids e)) (snd (i_ids (inner o SAttr c d s)))) as [e2 g']. cbn [snd]. destruct (e1 && e2); congruence.
Qed.
Example ex_owner_shown :
  In SAttr (steps Mkdir) /\ x_out _ (fs_op _ inner1 (env1 true) (mkReq false 77 1001 100) Mkdir (0, 0) []) = Some (1000, 100) /\
  rmap_uidgid (e_ids (env1 true)) 5 50 = Some (1000, 100).
Proof. split; [cbn [steps In]; tauto|]. vm_compute. split; reflexivity. Qed.
Print Assumptions owner_shown.

(* Where it falls short: an owner that the map does not have is shown with its number of the
   file system, which is that of another user of the host. *)
Theorem owner_shown_refuted : exists e a b, rmap_uidgid (e_ids e) (fst b) (snd b) = None /\ a <> b /\ rmap_stat e a = rmap_stat e b /\
  forall St inner q o ids st, In SAttr (steps o) -> (forall c d s, i_ids (inner o SAttr c d s) = b) ->
    x_err _ (fs_op St inner e q o ids st) = 0 -> x_out _ (fs_op St inner e q o ids st) = Some (rmap_stat e a).
Proof.
  exists (env1 true), (6, 50), (1001, 50). split; [vm_compute; reflexivity|]. split; [congruence|]. assert (E : rmap_stat (env1 true) (6, 50) = rmap_stat (env1 true) (1001, 50)) by (vm_compute; reflexivity).
  split; [auto|]. intros St inner q o ids st HI HB H. destruct (op_out St inner _ q o ids st HI H) as (c & d & s & _ & B). rewrite B, HB, E. auto.
Qed.
Print Assumptions owner_shown_refuted.

(* Where it falls short: an error does not mean that nothing happened.  (1) The file is gone
   though unlink fails with ENOSPC; (2) a setattr refused for the new owner has set the mode. *)
Definition inner2 : op -> step -> Z * Z -> Z * Z -> list Z -> inner_ret (list Z) :=
  fun o s c d st => match o, s with Chmod, SDo => mkRet [420] 0 (5, 50) false | _, _ => mkRet st 0 (5, 50) false end.
Theorem whole_refuted :
  (exists St inner e q st, may_use e q /\ x_err _ (fuse_request St inner e q true 10 q0 false IOther (0, 0) st) = -1028 /\
     x_st _ (fuse_request St inner e q true 10 q0 false IOther (0, 0) st) <> st) /\
  (exists St inner e q v ids st, may_use e q /\ x_err _ (fuse_request St inner e q true 4 v false IOther ids st) = EPERM /\
     x_st _ (fuse_request St inner e q true 4 v false IOther ids st) <> st).
Proof.
  split.
  - exists (list Z), inner1, (env1 true), (mkReq false 77 1000 100), [1; 2]. split; [unfold may_use, env1; cbn [e_other]; tauto|]. split; [vm_compute; reflexivity|vm_compute; discriminate].
  - exists (list Z), inner2, (env1 true), (mkReq false 77 1000 100), (mkValid false true true false false), (2000, 100), [493].
    split; [unfold may_use, env1; cbn [e_other]; tauto|]. split; [vm_compute; reflexivity|vm_compute; discriminate].
Qed.
Print Assumptions whole_refuted.

(* Times of access and modification that a setattr sets are set, if it sets nothing else. *)
Theorem setattr_times : forall v, v_times v = true -> v_size v = false -> v_mode v = false -> v_idsv v = false -> existsb with_times (setattr_ops v) = true.
Proof.
  intros [a b c d e] H1 H2 H3 H4. cbn [v_times v_size v_mode v_idsv] in *. subst. unfold setattr_ops. cbn [v_now v_mode v_idsv v_size v_times].
  destruct a; reflexivity.
Qed.
Example ex_setattr_times : setattr_ops (mkValid false false false false true) = [Utimens] /\ setattr_ops (mkValid true false false true true) = [Utimens; Truncate] /\ setattr_ops q0 = [Getattr].
Proof. vm_compute. repeat split; reflexivity. Qed.
Print Assumptions setattr_times.
(* Where it falls short: with a mode, an owner or a size beside them, they are dropped, and the
   answer is success. *)
Theorem setattr_times_lost : forall v, v_times v = true -> v_now v = false -> v_mode v = true \/ v_idsv v = true \/ v_size v = true ->
  existsb with_times (setattr_ops v) = false.
Proof.
  intros [a b c d e] H1 H2 H3. cbn [v_times v_size v_mode v_idsv v_now] in *. subst. unfold setattr_ops. cbn [v_now v_mode v_idsv v_size v_times].
  destruct b, c, d; try reflexivity; intuition discriminate.
Qed.
Example ex_setattr_times_lost : setattr_ops (mkValid false false false true true) = [Truncate] /\ setattr_ops (mkValid false true true false true) = [Chmod; Chown].
Proof. vm_compute. split; reflexivity. Qed.
Print Assumptions setattr_times_lost.
Theorem setattr_times_refuted : exists v, v_times v = true /\ existsb with_times (setattr_ops v) = false.
Proof. exists (mkValid false false false true true). split; reflexivity. Qed.
Print Assumptions setattr_times_refuted.

(* Where it falls short: root whose process has no number for the daemon (another pid
   namespace) counts as the kernel: it is root in the file system, where it has no id. *)
Theorem root_refuted : exists e q q', q_uid q = q_uid q' /\ q_gid q = q_gid q' /\ q_kwrite q = false /\ q_kwrite q' = false /\ q_pid q' <> 0 /\
  may_use e q /\ works_as e q (0, 0) /\ forall c, ~ works_as e q' c.
Proof.
  exists (env1 true), (mkReq false 0 0 0), (mkReq false 77 0 0). cbn [q_uid q_gid q_kwrite q_pid]. split; [auto|]. split; [auto|]. split; [auto|]. split; [auto|]. split; [lia|].
  split; [unfold may_use, env1; cbn [e_other]; tauto|]. split; [apply creds_iff; vm_compute; reflexivity|].
  intros c H. apply creds_iff in H. vm_compute in H. discriminate.
Qed.
Print Assumptions root_refuted.

(* Errors of the code reach the caller as those of the host, and errors inside as one that FUSE takes. *)
Theorem reply_codes : reply_code 0 = 0 /\
  (forall n, 0 < n < 9000 -> reply_code (- (1000 + n)) = - n) /\ (forall n, 0 < n < 1000 -> reply_code (- n) = - n) /\
  (forall err, 0 < Z.abs err < 512 \/ 1000 < Z.abs err < 1512 \/ 10000 <= Z.abs err -> -512 < reply_code err < 0).
Proof.
  unfold reply_code, remap_status. split; [auto|]. split; [|split].
  - intros n H. replace (1000 <=? Z.abs (- (1000 + n))) with true by lia. replace (- (1000 + n) =? 0) with false by lia. cbv zeta. replace (10000 <=? Z.abs (- (1000 + n))) with false by lia. replace (1000 <=? Z.abs (- (1000 + n))) with true by lia. lia.
  - intros n H. replace (1000 <=? Z.abs (- n)) with false by lia. lia.
  - intros err H. destruct (1000 <=? Z.abs err) eqn:E1; [|lia]. replace (err =? 0) with false by lia. cbv zeta. destruct (10000 <=? Z.abs err) eqn:E2; lia.
Qed.
Example ex_reply_codes : reply_code EPERM = -1 /\ reply_code (-13) = -13 /\ reply_code (-11111) = -117 /\ reply_code ENOSYS = -38.
Proof. vm_compute. repeat split; reflexivity. Qed.
Print Assumptions reply_codes.
