(* The mount daemon: theorems.  Model: MntModel.  Spec: MntSpec. *)
From Verif Require Import Base AddrModel MntModel MntSpec MntProofs MntToy.

Lemma checked_wider : forall W a a' b F c path f o, checked_mount W a b F c path f o -> (a' <= a)%nat -> checked_mount W a' b F c path f o.
Proof.
  intros W a a' b F c path f o [H1 H2 H3 H4 [rs [l [ru [r [st [D1 [D2 [D3 [D4 [D5 D6]]]]]]]]]]] Hb.
  split; auto; try (eapply saw_more; eauto).
  exists rs, l, ru, r, st. split; [auto|]. split; [auto|].
  split; [eapply saw_more; eauto|]. split; [eapply saw_more; eauto|].
  split; [intros x Hx; eapply saw_more; eauto|auto].
Qed.

Lemma front_only : forall fds e, In e (front fds) -> exists fd, e = EvClose fd.
Proof.
  intros fds e H. unfold front in H. destruct fds as [|fd [|]]; try contradiction.
  destruct (fd >? 0); cbn [In] in H; [|contradiction]. destruct H as [<-|[]]. eauto.
Qed.

Lemma mount_in_mid : forall W F a c i o tr t path f op r, input_bytes i -> sshape W F a c i o tr -> In (EvMount t path f op r) tr ->
  exists b fds, i = inr (b, fds) /\ asks_mount F b path f op false /\ checked_mount W a t F c path f op /\ r = w_mount (W t).
Proof.
  intros W F a c i o tr t path f op r HB HS HI.
  assert (K : forall b fds a' ob fo mid, i = inr (b, fds) -> (56 <= length b)%nat -> msg_check F (msg_dec (buf F b)) = 0 -> (a <= a')%nat ->
    cshape W F a' c (msg_dec (buf F b)) ob fo mid -> In (EvMount t path f op r) mid ->
    exists b fds, i = inr (b, fds) /\ asks_mount F b path f op false /\ checked_mount W a t F c path f op /\ r = w_mount (W t)).
  { intros b fds a' ob fo mid -> L M A C I. exists b, fds. split; [auto|]. cbn [input_bytes] in HB.
    assert (X : exists path' fd r' t', p_path (to_params (msg_dec (buf F b))) = Some path' /\ p_check (to_params (msg_dec (buf F b))) = false /\
      checked_mount W a' t' F c path' (p_flags (to_params (msg_dec (buf F b)))) (opts_of (to_params (msg_dec (buf F b))) fd) /\ r' = w_mount (W t') /\
      EvMount t path f op r = EvMount t' path' (p_flags (to_params (msg_dec (buf F b)))) (opts_of (to_params (msg_dec (buf F b))) fd) r' /\
      g_cmd (msg_dec (buf F b)) = 2).
    { destruct C as [C|ob fo mid C C1|ob fo mid C C1].
      - destruct I.
      - destruct C1 as [e|t' p' fd' A1 A2 A3 A4 A5 A6|t' p' fd' r' A1 A2 A3 A4 A5 A6 A7|t' p' fd' r' A1 A2 A3 A4 A5 A6 A7 A8].
        + destruct I.
        + destruct I as [I|[I|[]]]; [|discriminate]. exists p', fd', 0, t'. repeat (split; [auto|]). auto.
        + destruct I as [I|[I|[I|[]]]]; [discriminate| |discriminate]. exists p', fd', r', t'. repeat (split; [auto|]). auto.
        + destruct I as [I|[I|[]]]; [|discriminate]. exists p', fd', r', t'. repeat (split; [auto|]). auto.
      - destruct C1; [destruct I|]. destruct I as [I|[]]. discriminate. }
    destruct X as [p' [fd' [r' [t' [X1 [X2 [X3 [X4 [X5 X6]]]]]]]]]. inversion X5; subst.
    split; [apply asks_of; auto|]. split; [eapply checked_wider; eauto|auto]. }
  destruct HS; try contradiction.
  - apply front_only in HI. destruct HI; discriminate.
  - apply in_app_or in HI. destruct HI as [HI|HI]; [destruct (f0 >? 0); cbn [In] in HI; [destruct HI as [HI|[]]; discriminate|contradiction]|].
    destruct HI as [HI|HI]; [discriminate|]. apply in_app_or in HI. destruct HI as [HI|HI]; [eapply K; eauto|].
    apply front_only in HI. destruct HI; discriminate.
  - apply in_app_or in HI. destruct HI as [HI|HI]; [eapply K; eauto|]. apply front_only in HI. destruct HI; discriminate.
  - destruct HI as [HI|HI]; [discriminate|]. apply in_app_or in HI. destruct HI as [HI|HI]; [eapply K; eauto|].
    apply front_only in HI. destruct HI; discriminate.
Qed.

(* ---- C54: the mount daemon mounts only what its rules let the asking user mount ---- *)
(* Whatever arrives from a peer, and however the system changes meanwhile: a mount is what
   the message asked for, and each thing it needs was found true in the course of the
   request. *)
Theorem mount_checked : forall W F c i s o s', real_errors W -> input_bytes i -> serve W F c i s = (o, s') ->
  exists tr, d_trace s' = tr ++ d_trace s /\
  forall t path flags op r, In (EvMount t path flags op r) tr ->
    exists b fds, i = inr (b, fds) /\ asks_mount F b path flags op false /\
      checked_mount W (d_clock s) t F c path flags op /\ r = w_mount (W t).
Proof.
  intros W F c i s o s' RE HB HR. destruct (serve_spec W F RE c i s HB) as [o1 [s1 [tr [H1 [H2 H3]]]]].
  assert (s1 = s') by congruence. subst s1. exists tr. split; [auto|]. intros. eapply mount_in_mid; eauto.
Qed.
Print Assumptions mount_checked.

Example mount_checked_ex :
  match serve y_W y_F y_c (inr (y_msg 2 (y_par y_a 6 false), [])) y_s with
  | (Val _, s) => map y_view (d_trace s)
  | _ => []
  end = [EvClose 9; EvReply 9 [0; 0; 0; 0] 9 0; EvMount 8 y_a 6 y_opts 0; EvOpen 9].
Proof. vm_compute. reflexivity. Qed.

(* If names, kinds and owners do not change meanwhile, they are as the rules say: the path
   is canonical and names a directory of the peer on one of nine file systems, the first
   rule that names the same directory is for the peer or for all; the user and group of the
   mount are those of the peer. *)
Theorem mount_allowed : forall W w F c i s o s', real_errors W -> steady W w -> input_bytes i ->
  serve W F c i s = (o, s') ->
  exists tr, d_trace s' = tr ++ d_trace s /\
  forall t path flags op r, In (EvMount t path flags op r) tr -> may_mount w F c path flags op.
Proof.
  intros W w F c i s o s' RE ST HB HR. destruct (mount_checked W F c i s o s' RE HB HR) as [tr [H1 H2]].
  exists tr. split; [auto|]. intros t path flags op r HI. destruct (H2 _ _ _ _ _ HI) as [b [fds [_ [_ [H3 _]]]]].
  eapply checked_may; eauto.
Qed.
Print Assumptions mount_allowed.

Example mount_allowed_ex : (* another user, a flag too many, ids of someone else: no mount *)
  map (fun x => match serve y_W y_F (fst x) (inr (y_msg 2 (snd x), [])) y_s with (Val _, s) => map y_view (d_trace s) | _ => [] end)
    [(mkCred 1001 100, y_par y_a 0 false); (y_c, y_par y_a 16 false); (mkCred 1000 101, y_par y_a 0 false)] =
  [[EvReply 0 [245; 3; 0; 0] (-1) 0]; [EvReply 0 [71; 4; 0; 0] (-1) 0]; [EvReply 0 [245; 3; 0; 0] (-1) 0]].
Proof. vm_compute. reflexivity. Qed.

Lemma asks_inj : forall F b path flags op k, asks_mount F b path flags op k ->
  flags = p_flags (to_params (msg_dec (buf F b))) /\ op = opts_of (to_params (msg_dec (buf F b))) (o_fd op).
Proof.
  intros F b path flags op k [[L _ _ _] _ _ A B C E G H _].
  unfold to_params, opts_of. cbn [p_flags p_uid p_gid p_mode p_maxread p_other].
  assert (O : (g_other (msg_dec (buf F b)) >? 0) = o_other op).
  { unfold msg_dec. cbn [g_other]. rewrite buf_num, num1 by (auto; lia). destruct (o_other op); lia. }
  rewrite O. unfold msg_dec. cbn [g_flags g_uid g_gid g_mode g_maxread]. rewrite !buf_num by (auto; lia).
  rewrite A, B, C, E, G. destruct op; auto.
Qed.

Definition msg_ok (m : mmsg) : Prop :=
  0 <= g_magic m < 2 ^ 32 /\ 0 <= g_major m < 2 ^ 16 /\ 0 <= g_minor m < 2 ^ 16 /\ 0 <= g_cmd m < 2 ^ 32 /\ 0 <= g_status m < 2 ^ 32 /\
  0 <= g_flags m < 2 ^ 64 /\ 0 <= g_uid m < 2 ^ 32 /\ 0 <= g_gid m < 2 ^ 32 /\ 0 <= g_mode m < 2 ^ 32 /\ 0 <= g_maxread m < 2 ^ 32 /\
  0 <= g_other m < 256 /\ 0 <= g_check m < 256 /\ length (g_res m) = 86%nat.
Lemma enc_len : forall m, length (g_res m) = 86%nat -> length (msg_enc m) = (128 + length (g_path m))%nat.
Proof. intros m H. unfold msg_enc. rewrite !app_length, !le_enc_length, H. lia. Qed.
Lemma enc_fields : forall m, msg_ok m ->
  num 4 (msg_enc m) 0 = g_magic m /\ num 2 (msg_enc m) 4 = g_major m /\ num 2 (msg_enc m) 6 = g_minor m /\ num 4 (msg_enc m) 8 = g_cmd m /\
  num 4 (msg_enc m) 12 = g_status m /\ num 8 (msg_enc m) 16 = g_flags m /\ num 4 (msg_enc m) 24 = g_uid m /\ num 4 (msg_enc m) 28 = g_gid m /\
  num 4 (msg_enc m) 32 = g_mode m /\ num 4 (msg_enc m) 36 = g_maxread m /\ at_ (msg_enc m) 40 = g_other m /\ at_ (msg_enc m) 41 = g_check m /\
  forall i, at_ (msg_enc m) (128 + i) = at_ (g_path m) i.
Proof.
  intros m [? [? [? [? [? [? [? [? [? [? [? [? L]]]]]]]]]]]].
  pose proof (enc_len m L) as EL. rewrite <- !num1.
  repeat match goal with |- _ /\ _ => split; [
    rewrite <- le_dec_num by lia; unfold msg_enc;
    repeat (rewrite AddrProofs.sub_skip by (rewrite le_enc_length; lia); rewrite le_enc_length; cbn [Nat.sub]);
    rewrite AddrProofs.sub_hd by apply le_enc_length; apply le_dec_enc; assumption|] end.
  intros i. unfold msg_enc.
  repeat (rewrite at_app2 by (rewrite ?le_enc_length, ?L; lia); rewrite ?le_enc_length, ?L).
  f_equal. lia.
Qed.

(* What the rules allow is mounted, if the device opens and the kernel mounts; the peer is
   told so and given the descriptor. *)
Theorem mount_granted : forall W w F c b fds s path flags op st, real_errors W -> steady W w ->
  all_bytes b -> (length fds <= 1)%nat -> (forall t x, w_close (W t) x = 0) ->
  asks_mount F b path flags op false -> may_mount w F c path flags op ->
  w_stat w dev_fuse = inr st -> (t_mode st / 4096) mod 16 = 2 ->
  (forall t, w_open (W t) = inr (o_fd op)) -> (forall t, w_mount (W t) = 0) ->
  exists s' tr, serve W F c (inr (b, fds)) s = (Val tt, s') /\ d_trace s' = tr ++ d_trace s /\
    (exists t, In (EvMount t path flags op 0) tr) /\
    (exists t r b', In (EvReply t b' (o_fd op) r) tr /\ num 4 b' 12 = 0).
Proof.
  intros W w F c b fds s path flags op st RE ST HB HF CL HA HM HD HK HO HW.
  pose proof (am_wf _ _ _ _ _ _ HA) as WF. pose proof (wf_long _ _ WF) as HL.
  pose proof (sp_some _ _ (am_path _ _ _ _ _ _ HA)) as HN.
  destruct (asks_inj _ _ _ _ _ _ HA) as [EF EO].
  set (p := to_params (msg_dec (buf F b))) in *. rewrite EF, EO in HA.
  apply asks_of in HA; [|auto|auto]. destruct HA as [A1 [A2 [A3 A4]]]. fold p in A3, A4.
  assert (CH : is_chr (t_mode st) = true).
  { pose proof (is_dir_iff (mkStat 0 0 (t_mode st + 8192) 0 0)) as K. clear K. unfold is_chr. apply Z.eqb_eq.
    change 61440 with (Z.shiftl (Z.ones 4) 12). change 8192 with (Z.shiftl 2 12). rewrite <- HK.
    change 4096 with (2 ^ 12). change 16 with (2 ^ 4). rewrite <- Z.shiftr_div_pow2, <- Z.land_ones by lia.
    apply Z.bits_inj'. intros n Hn. rewrite Z.land_spec. destruct (Z.lt_ge_cases n 12).
    - rewrite !Z.shiftl_spec_low by lia. rewrite andb_false_r. reflexivity.
    - rewrite !Z.shiftl_spec by lia. rewrite Z.land_spec, Z.shiftr_spec by lia. do 2 f_equal. lia. }
  assert (HM' : may_mount w F c path (p_flags p) (opts_of p 0)).
  { destruct HM as [M1 M2 M3 M4 M5]. split; auto. rewrite EF, EO in M1. destruct M1. split; auto. }
  destruct (serve_ok W F CL c b fds s 0 (fun t => [EvMount (Nat.pred t) path (p_flags p) (opts_of p (o_fd op)) 0; EvOpen (o_fd op)]) (o_fd op) HL HF A1)
    as [s' [t [t' [r [R1 R2]]]]].
  { intros s0 H0. unfold exec_request. rewrite A2. unfold CMD_HANDSHAKE, CMD_MOUNT. change (2 =? 1) with false. change (2 =? 2) with true. cbv iota.
    fold p. destruct (exec_mount_yes W F w ST c p path (o_fd op) st s0 H0 A3 HN A4 HM' HD CH HO HW) as [s1 [t1 [X1 [X2 [X3 X4]]]]].
    exists s1. split; [auto|]. rewrite X2. cbn [Nat.pred]. auto. }
  eexists s', _. split; [exact R1|]. split; [exact R2|]. rewrite EF, EO. cbn [opts_of o_fd]. split.
  - exists (Nat.pred t'). apply in_or_app. right. right. left. reflexivity.
  - exists t, r, (msg_enc (reply_of F (msg_dec (buf F b)) 0)). split; [apply in_or_app; right; left; reflexivity|].
    rewrite <- le_dec_num; [|rewrite enc_len; [|reflexivity]; cbn [reply_of g_path msg_init]; rewrite repeat_length; lia].
    unfold msg_enc, reply_of. cbn [g_magic g_major g_minor g_cmd g_status g_flags g_uid g_gid g_mode g_maxread g_other g_check g_res g_path msg_init].
    repeat (rewrite AddrProofs.sub_skip by (rewrite le_enc_length; lia); rewrite le_enc_length; cbn [Nat.sub]).
    rewrite AddrProofs.sub_hd by apply le_enc_length. reflexivity.
Qed.
Print Assumptions mount_granted.

Example mount_granted_ex : may_mount y_world y_F y_c y_a 6 y_opts /\ asks_mount y_F (y_msg 2 (y_par y_a 6 false)) y_a 6 y_opts false.
Proof.
  split.
  - split.
    + split; try reflexivity.
      * apply flags_iff. vm_compute. reflexivity.
      * cbn; lia.
      * exists 6. split; [lia|reflexivity].
    + reflexivity.
    + exists y_home. split; [reflexivity|]. split; [vm_compute; reflexivity|]. cbn. lia.
    + exists 61267. split; [reflexivity|]. cbn. tauto.
    + exists [mkRule [47; 120] 7 false; mkRule y_a 1000 false], [mkRule [47; 120] 7 false], (mkRule y_a 1000 false), [], y_home.
      split; [reflexivity|]. split; [reflexivity|]. split; [reflexivity|].
      split; [exists y_home; split; [reflexivity|]; cbn; lia|]. split; [|right; reflexivity].
      intros x [<-|[]] [s1 [K _]]. vm_compute in K. discriminate.
  - split; try (vm_compute; reflexivity).
    + split; try (vm_compute; reflexivity); [vm_compute; lia|vm_compute; discriminate].
    + split; [discriminate|cbn; lia| |vm_compute; reflexivity]. intros i Hi. cbn in Hi.
      destruct i as [|[|[|[|i]]]]; [vm_compute; split; [reflexivity|discriminate]..|lia].
    + vm_compute. split; discriminate.
    + vm_compute. split; discriminate.
Qed.

Lemma reply_status : forall F m e, small e -> num 4 (msg_enc (reply_of F m e)) 12 = Z.abs e.
Proof.
  intros F m e H.
  rewrite <- le_dec_num; [|rewrite enc_len; [|reflexivity]; cbn [reply_of g_path msg_init]; rewrite repeat_length; lia].
  unfold msg_enc, reply_of. cbn [g_magic g_major g_minor g_cmd g_status g_flags g_uid g_gid g_mode g_maxread g_other g_check g_res g_path msg_init].
  repeat (rewrite AddrProofs.sub_skip by (rewrite le_enc_length; lia); rewrite le_enc_length; cbn [Nat.sub]).
  rewrite AddrProofs.sub_hd by apply le_enc_length. apply le_dec_enc. unfold small in H. change (256 ^ Z.of_nat 4) with 4294967296. lia.
Qed.

Lemma acts_front : forall fds, acts (front fds) = [].
Proof. intros. unfold front. destruct fds as [|x [|]]; try reflexivity. destruct (x >? 0); reflexivity. Qed.
Lemma replies_front : forall fds, replies (front fds) = [].
Proof. intros. unfold front. destruct fds as [|x [|]]; try reflexivity. destruct (x >? 0); reflexivity. Qed.
Lemma acts_app : forall a b, acts (a ++ b) = acts a ++ acts b.
Proof. intros. apply filter_app. Qed.
Lemma replies_app : forall a b, replies (a ++ b) = replies a ++ replies b.
Proof. intros. apply filter_app. Qed.
Lemma mid_counts : forall W F a c m o f mid, cshape W F a c m o f mid -> (length (acts mid) <= 1)%nat /\ replies mid = [].
Proof.
  intros W F a c m o f mid [C|o1 f1 mid1 C C1|o1 f1 mid1 C C1]; [cbn; auto| |].
  - destruct C1; cbn; auto.
  - destruct C1; cbn; auto.
Qed.

(* A request leads to at most one mount or unmount and at most one reply.  The reply
   carries a descriptor just if a mount with it was made, and reports success of a mount or
   an unmount only if it was made. *)
Theorem mount_reply : forall W F c i s o s', real_errors W -> input_bytes i -> serve W F c i s = (o, s') ->
  exists tr, d_trace s' = tr ++ d_trace s /\ (length (acts tr) <= 1)%nat /\ (length (replies tr) <= 1)%nat /\
  forall t b fd r, In (EvReply t b fd r) tr ->
    (fd <> -1 -> exists t' path flags op, In (EvMount t' path flags op 0) tr /\ o_fd op = fd) /\
    (forall t' path flags op, In (EvMount t' path flags op 0) tr -> o_fd op = fd /\ num 4 b 12 = 0) /\
    (forall b0 fds path flags op, i = inr (b0, fds) -> asks_mount F b0 path flags op false -> num 4 b 12 = 0 ->
       exists t' op', In (EvMount t' path flags op' 0) tr) /\
    (forall b0 fds path flags, i = inr (b0, fds) -> asks_umount F b0 path flags -> num 4 b 12 = 0 ->
       exists t', In (EvUmount t' path flags 0) tr).
Proof.
  intros W F c i s o s' RE HB HR. destruct (serve_spec W F RE c i s HB) as [o1 [s1 [tr [H1 [H2 H3]]]]].
  assert (s1 = s') by congruence. subst s1. exists tr. split; [auto|]. clear H1 H2 HR.
  assert (K : forall b0 fds a' e f mid pre t0 r0, all_bytes b0 -> i = inr (b0, fds) -> (56 <= length b0)%nat -> msg_check F (msg_dec (buf F b0)) = 0 ->
    cshape W F a' c (msg_dec (buf F b0)) (Val e) f mid -> small e -> (pre = [] \/ exists x, pre = [EvClose x]) ->
    tr = pre ++ EvReply t0 (msg_enc (reply_of F (msg_dec (buf F b0)) e)) f r0 :: mid ++ front fds ->
    (length (acts tr) <= 1)%nat /\ (length (replies tr) <= 1)%nat /\
    forall t b fd r, In (EvReply t b fd r) tr ->
    (fd <> -1 -> exists t' path flags op, In (EvMount t' path flags op 0) tr /\ o_fd op = fd) /\
    (forall t' path flags op, In (EvMount t' path flags op 0) tr -> o_fd op = fd /\ num 4 b 12 = 0) /\
    (forall b0 fds path flags op, i = inr (b0, fds) -> asks_mount F b0 path flags op false -> num 4 b 12 = 0 ->
       exists t' op', In (EvMount t' path flags op' 0) tr) /\
    (forall b0 fds path flags, i = inr (b0, fds) -> asks_umount F b0 path flags -> num 4 b 12 = 0 ->
       exists t', In (EvUmount t' path flags 0) tr)).
  { intros b0 fds a' e f mid pre t0 r0 HB0 EI L M C SE HP ET.
    destruct (mid_counts _ _ _ _ _ _ _ _ C) as [N1 N2].
    assert (AP : acts pre = [] /\ replies pre = []) by (destruct HP as [->|[x ->]]; auto). destruct AP as [AP1 AP2].
    split. { rewrite ET, acts_app, AP1. cbn [app acts filter]. fold (acts (mid ++ front fds)). rewrite acts_app, acts_front, app_nil_r. auto. }
    split. { rewrite ET, replies_app, AP2. cbn [app replies filter]. fold (replies (mid ++ front fds)). rewrite replies_app, replies_front, N2. auto. }
    intros t b fd r HI.
    assert (Q : EvReply t b fd r = EvReply t0 (msg_enc (reply_of F (msg_dec (buf F b0)) e)) f r0).
    { rewrite ET in HI. apply in_app_or in HI. destruct HI as [HI|HI]; [destruct HP as [->|[x ->]]; [destruct HI|destruct HI as [HI|[]]; discriminate]|].
      destruct HI as [HI|HI]; [auto|]. exfalso. apply in_app_or in HI. destruct HI as [HI|HI].
      - assert (In (EvReply t b fd r) (replies mid)) as X by (apply filter_In; auto). rewrite N2 in X. destruct X.
      - apply front_only in HI. destruct HI; discriminate. }
    assert (Q1 : b = msg_enc (reply_of F (msg_dec (buf F b0)) e)) by congruence.
    assert (Q2 : fd = f) by congruence. clear Q HI. subst b fd. rewrite reply_status by auto.
    assert (IM : forall ev, In ev mid -> In ev tr) by (intros ev X; rewrite ET; apply in_or_app; right; right; apply in_or_app; auto).
    assert (MI : forall t' path flags op, In (EvMount t' path flags op 0) tr -> In (EvMount t' path flags op 0) mid).
    { intros t' path flags op X. rewrite ET in X. apply in_app_or in X. destruct X as [X|X]; [destruct HP as [->|[x ->]]; [destruct X|destruct X as [X|[]]; discriminate]|].
      destruct X as [X|X]; [discriminate|]. apply in_app_or in X. destruct X as [X|X]; [auto|]. apply front_only in X. destruct X; discriminate. }
    assert (AM : forall b1 fds1 path flags op, i = inr (b1, fds1) -> asks_mount F b1 path flags op false ->
      g_cmd (msg_dec (buf F b0)) = 2 /\ p_path (to_params (msg_dec (buf F b0))) = Some path /\ p_flags (to_params (msg_dec (buf F b0))) = flags /\
      p_check (to_params (msg_dec (buf F b0))) = false).
    { intros b1 fds1 path flags op E1 HA. assert (b1 = b0) by congruence. subst b1. destruct (asks_inj _ _ _ _ _ _ HA) as [G1 G2].
      pose proof HA as HA'. rewrite G1, G2 in HA'. apply asks_of in HA'; [|auto|auto]. destruct HA' as [_ [X1 [X2 X3]]]. auto. }
    assert (AU : forall b1 fds1 path flags, i = inr (b1, fds1) -> asks_umount F b1 path flags ->
      g_cmd (msg_dec (buf F b0)) = 3 /\ p_path (to_params (msg_dec (buf F b0))) = Some path /\ p_flags (to_params (msg_dec (buf F b0))) = flags).
    { intros b1 fds1 path flags E1 HA. assert (b1 = b0) by congruence. subst b1. pose proof (au_flags _ _ _ _ HA) as FL.
      assert (G : p_flags (to_params (msg_dec (buf F b0))) = flags).
      { unfold to_params, msg_dec. cbn [p_flags g_flags]. rewrite buf_num by (auto; lia). auto. }
      rewrite <- G in HA. apply asks_u in HA; [|auto]. destruct HA as [_ [X1 X2]]. auto. }
    clear ET HP AP1 AP2.
    assert (AB : Z.abs e = 0 -> e = 0) by lia.
    set (m := msg_dec (buf F b0)) in *. clearbody m.
    inversion C as [C0|o2 f2 mid2 C0 C1|o2 f2 mid2 C0 C1]; subst.
    - split; [congruence|]. split; [intros t' path flags op X; apply MI in X; destruct X|].
      split; [intros b1 fds1 path flags op E1 HA _; destruct (AM _ _ _ _ _ E1 HA); congruence|].
      intros b1 fds1 path flags E1 HA _. destruct (AU _ _ _ _ E1 HA). congruence.
    - inversion C1 as [e2 A1|t2 p2 fd2 A1 A2 A3 A4 A5 A6|t2 p2 fd2 r2 A1 A2 A3 A4 A5 A6 A7|]; subst.
      + split; [congruence|]. split; [intros t' path flags op X; apply MI in X; destruct X|].
        split; [|intros b1 fds1 path flags E1 HA _; destruct (AU _ _ _ _ E1 HA); congruence].
        intros b1 fds1 path flags op E1 HA Z0. destruct (AM _ _ _ _ _ E1 HA) as [_ [_ [_ X]]]. rewrite A1 in X by auto. discriminate.
      + split; [intros _; eexists t2, p2, _, (opts_of (to_params m) f); split; [apply IM; left; reflexivity|reflexivity]|].
        split. { intros t' path flags op X. apply MI in X. destruct X as [X|[X|[]]]; [|discriminate]. inversion X; subst. split; [reflexivity|reflexivity]. }
        split; [|intros b1 fds1 path flags E1 HA _; destruct (AU _ _ _ _ E1 HA); congruence].
        intros b1 fds1 path flags op E1 HA Z0. destruct (AM _ _ _ _ _ E1 HA) as [_ [X1 [X2 X3]]].
        assert (path = p2) by congruence. subst path flags. eexists t2, _. apply IM. left. reflexivity.
      + split; [congruence|].
        split. { intros t' path flags op X. apply MI in X. destruct X as [X|[X|[X|[]]]]; [discriminate| |discriminate]. inversion X; subst. lia. }
        split; [|intros b1 fds1 path flags E1 HA _; destruct (AU _ _ _ _ E1 HA); congruence]. intros. lia.
    - inversion C1 as [e2 A1|t2 p2 r2 A1 A2 A3]; subst.
      + split; [congruence|]. split; [intros t' path flags op X; apply MI in X; destruct X|].
        split; [intros; lia|]. intros; lia.
      + split; [congruence|]. split; [intros t' path flags op X; apply MI in X; destruct X as [X|[]]; discriminate|].
        split; [intros b1 fds1 path flags op E1 HA _; destruct (AM _ _ _ _ _ E1 HA); congruence|].
        intros b1 fds1 path flags E1 HA Z0. destruct (AU _ _ _ _ E1 HA) as [_ [X1 X2]].
        assert (path = p2) by congruence. subst path flags. exists t2. apply IM. left. f_equal. lia. }
  destruct H3 as [i HE|b fd t Hfd HC|b fds L HF HM|b fds a' e f t r mid L HF HM HA HC HS|b fds a' f mid L HF HM HA HC|b fds a' e f t t' r mid L HF HM HA HC HS Hp HW].
  - cbn. split; [lia|]. split; [lia|]. intros t b fd r [].
  - cbn. split; [lia|]. split; [lia|]. intros t' b' fd' r' [].
  - rewrite acts_front, replies_front. cbn. split; [lia|]. split; [lia|]. intros t b' fd r X. apply front_only in X. destruct X; discriminate.
  - eapply (K b fds a' e f mid (if f >? 0 then [EvClose f] else []) t r); eauto. destruct (f >? 0); eauto.
  - destruct (mid_counts _ _ _ _ _ _ _ _ HC) as [N1 N2]. rewrite acts_app, replies_app, acts_front, replies_front, N2, app_nil_r. cbn.
    split; [auto|]. split; [lia|]. intros t b' fd r X. exfalso. apply in_app_or in X. destruct X as [X|X].
    + assert (In (EvReply t b' fd r) (replies mid)) as Y by (apply filter_In; auto). rewrite N2 in Y. destruct Y.
    + apply front_only in X. destruct X; discriminate.
  - eapply (K b fds a' e f mid [] t r); eauto.
Qed.
Print Assumptions mount_reply.

Example mount_reply_ex : (* to check only: success without a mount and without a descriptor *)
  match serve y_W y_F y_c (inr (y_msg 2 (y_par y_a 0 true), [])) y_s with (Val _, s) => map y_view (d_trace s) | _ => [] end =
  [EvReply 6 [0; 0; 0; 0] (-1) 0].
Proof. vm_compute. reflexivity. Qed.

(* What a client sends (silofs_mntrpc_mount, lib/mntsvc.c:1570-1596) arrives as such. *)
Theorem mount_carried : forall F p path m, 0 <= cf_major F < 2 ^ 16 -> 0 <= cf_minor F < 2 ^ 16 ->
  p_path p = Some path -> (forall i, (i < length path)%nat -> at_ path i <> 0) ->
  0 <= p_flags p < 2 ^ 64 -> 0 <= p_uid p < 2 ^ 32 -> 0 <= p_gid p < 2 ^ 32 -> 0 <= p_mode p < 2 ^ 32 -> 0 <= p_maxread p < 2 ^ 32 ->
  msg_setup F 2 p = inr m ->
  asks_mount F (msg_enc m) path (p_flags p) (mkMopts (p_maxread p) 0 (p_mode p) (p_uid p) (p_gid p) (p_other p)) (p_check p).
Proof.
  intros F p path m HMa HMi HP HZ HF HU HG HMo HR HS. unfold msg_setup in HS. rewrite HP in HS.
  destruct ((Z.of_nat (length path) =? 0) || (Z.of_nat (length path) >=? MNTPATH_MAX)) eqn:EL; [discriminate|].
  unfold MNTPATH_MAX in EL. assert (X : forall A B (a b : B), @inr A B a = inr b -> b = a) by congruence. apply X in HS. clear X.
  assert (U : forall x, 0 <= x < 2 ^ 32 -> u32 x = x) by (intros x Hx; unfold u32; apply Z.mod_small; auto).
  rewrite !U in HS by auto.
  assert (OK : msg_ok m).
  { rewrite HS. unfold msg_ok. cbn [g_magic g_major g_minor g_cmd g_status g_flags g_uid g_gid g_mode g_maxread g_other g_check g_res msg_init].
    unfold META_MAGIC. rewrite repeat_length. repeat (split; [first [assumption|destruct (p_other p); lia|destruct (p_check p); lia|lia]|]). reflexivity. }
  destruct (enc_fields m OK) as [E1 [E2 [E3 [E4 [_ [E5 [E6 [E7 [E8 [E9 [E10 [E11 E12]]]]]]]]]]]].
  assert (LP : length (g_path m) = 1920%nat).
  { rewrite HS. cbn [g_path msg_init]. rewrite app_length, skipn_length, repeat_length. lia. }
  assert (LL : length (msg_enc m) = 2048%nat) by (rewrite enc_len, LP; [reflexivity|rewrite HS; reflexivity]).
  assert (PT : g_path m = path ++ skipn (length path) (repeat 0 1920)) by (rewrite HS; reflexivity).
  split.
  - split; [lia|rewrite E1, HS; reflexivity|rewrite E2, HS; reflexivity|rewrite E3, HS; cbn [g_minor msg_init]; lia].
  - rewrite E4, HS. reflexivity.
  - split.
    + intros ->. cbn [length] in EL. lia.
    + lia.
    + intros i Hi. rewrite E12, PT, at_app1 by auto. split; [reflexivity|auto].
    + rewrite E12, PT, at_app2 by lia. rewrite Nat.sub_diag. unfold at_. rewrite nth_skipn. apply at_zeros.
  - rewrite E5, HS. reflexivity.
  - rewrite E6, HS. reflexivity.
  - rewrite E7, HS. reflexivity.
  - rewrite E8, HS. reflexivity.
  - rewrite E9, HS. reflexivity.
  - rewrite E10, HS. cbn [o_other g_other]. destruct (p_other p); split; intros; try lia; try discriminate; auto.
  - rewrite E11, HS. cbn [g_check]. destruct (p_check p); split; intros; try lia; try discriminate; auto.
Qed.
Print Assumptions mount_carried.

Example mount_carried_ex : (* too long a path is not sent *)
  (length (y_msg 2 (y_par y_a 0 false)), msg_setup y_F 2 (y_par (repeat 97 1920) 0 false)) = (2048%nat, inl (-1022)).
Proof. vm_compute. reflexivity. Qed.

(* A peer that sends at most one descriptor, along with a message long enough, has no
   descriptor left open in the daemon, and does not stop it, if closing works. *)
Theorem request_fds : forall W F c i s o s', real_errors W -> input_bytes i -> (forall t x, w_close (W t) x = 0) ->
  (forall b fds, i = inr (b, fds) -> fds = [] \/ exists fd, fds = [fd] /\ 0 < fd /\ (56 <= length b)%nat) ->
  serve W F c i s = (o, s') ->
  o = Val tt /\ exists tr, d_trace s' = tr ++ d_trace s /\
    (forall fd, opened tr fd -> closed tr fd) /\ (forall b fds fd, i = inr (b, fds) -> In fd fds -> closed tr fd).
Proof.
  intros W F c i s o s' RE HB CL HF HR. destruct (serve_spec W F RE c i s HB) as [o1 [s1 [tr [H1 [H2 H3]]]]].
  assert (s1 = s') by congruence. assert (o1 = o) by congruence. subst s1 o1. clear H1 HR.
  assert (FC : forall b fds fd tr1, i = inr (b, fds) -> In fd fds -> closed (tr1 ++ front fds) fd).
  { intros b fds fd tr1 E I. apply in_or_app. right. destruct (HF _ _ E) as [->|[x [-> [Hx _]]]]; [destruct I|].
    destruct I as [->|[]]. unfold front. replace (fd >? 0) with true by lia. left. auto. }
  assert (FO : forall fds fd, ~ In (EvOpen fd) (front fds)) by (intros fds fd I; apply front_only in I; destruct I; discriminate).
  destruct H3 as [i HE|b fd t Hfd HC|b fds L HL HM|b fds a' e f t r mid L HL HM HA HC HS|b fds a' f mid L HL HM HA HC|b fds a' e f t t' r mid L HL HM HA HC HS Hp HW].
  - split; [auto|]. exists []. split; [auto|]. split; [intros fd []|]. intros b fds fd E I. exfalso.
    destruct (HF _ _ E) as [->|[x [-> [_ Hx]]]]; [destruct I|]. destruct (HE _ _ E) as [K|K]; [lia|cbn in K; lia].
  - rewrite CL in HC. congruence.
  - split; [auto|]. exists (front fds). split; [auto|]. split; [intros fd I; destruct (FO _ _ I)|].
    intros b0 fds0 fd E I. inversion E; subst. apply (FC b0 fds0 fd []); auto.
  - split; [auto|]. eexists. split; [exact H2|]. split.
    + intros fd I. unfold opened in I. apply in_app_or in I. destruct I as [I|I]; [destruct (f >? 0); [destruct I as [I|[]]; discriminate|destruct I]|].
      destruct I as [I|I]; [discriminate|]. apply in_app_or in I. destruct I as [I|I]; [|destruct (FO _ _ I)].
      inversion HC as [C0|o2 f2 mid2 C0 C1|o2 f2 mid2 C0 C1]; subst.
      * destruct I.
      * inversion C1 as [e2 A1|t2 p2 fd2 A1 A2 A3 A4 A5 A6|t2 p2 fd2 r2 A1 A2 A3 A4 A5 A6 A7|]; subst.
        -- destruct I.
        -- destruct I as [I|[I|[]]]; [discriminate|]. inversion I; subst. replace (fd >? 0) with true by lia. left. auto.
        -- destruct I as [I|[I|[I|[]]]]; [discriminate|discriminate|]. inversion I; subst.
           apply in_or_app. right. right. left. auto.
      * inversion C1; subst; [destruct I|]. destruct I as [I|[]]. discriminate.
    + intros b0 fds0 fd E I. inversion E; subst b0 fds0. unfold closed.
      rewrite app_comm_cons, app_assoc. apply (FC b fds fd); auto.
  - exfalso. inversion HC as [|o2 f2 mid2 C0 C1|o2 f2 mid2 C0 C1]; subst; [|inversion C1].
    inversion C1 as [|  | |t2 p2 fd2 r2 A1 A2 A3 A4 A5 A6 A7 [t' A8]]; subst. rewrite CL in A8. congruence.
  - rewrite CL in HW. congruence.
Qed.
Print Assumptions request_fds.

Example request_fds_ex :
  match serve y_W y_F y_c (inr (y_msg 2 (y_par y_a 0 false), [7])) y_s with (Val _, s) => map y_view (d_trace s) | _ => [] end =
  [EvClose 9; EvReply 10 [0; 0; 0; 0] 9 0; EvMount 9 y_a 0 y_opts 0; EvOpen 9; EvClose 7].
Proof. vm_compute. reflexivity. Qed.

(* ---- what does not hold ---- *)
Lemma y_bytes : forall b fds, forallb (fun x => (0 <=? x) && (x <? 256)) b = true -> input_bytes (inr (b, fds)).
Proof. intros b fds K. cbn [input_bytes]. rewrite forallb_forall in K. apply Forall_forall. intros x Hx. apply K in Hx. unfold is_byte. lia. Qed.
Lemma y_stat_or : forall p st q e, (if y_eq q p then inr st else y_stat q) = inl e -> 0 < e < 4096.
Proof. intros p st q e H. destruct (y_eq q p); [discriminate|]. eapply y_stat_real; eauto. Qed.

(* The checks and the mount go by name, one after the other: at the time of the mount the
   name may be that of another directory, of another user (not so if names do not change:
   mount_allowed). *)
Definition y_Wrace (t : nat) : world :=
  if (t <? 8)%nat then y_world else y_with (fun p => if y_eq p y_a then inr y_other else y_stat p) (fun p => inr p).
Theorem mount_race_refuted : exists W F c i s s' t path flags op,
  real_errors W /\ input_bytes i /\ serve W F c i s = (Val tt, s') /\ d_trace s = [] /\
  In (EvMount t path flags op 0) (d_trace s') /\ ~ own_dir c path (W t).
Proof.
  exists y_Wrace, y_F, y_c, (inr (y_msg 2 (y_par y_a 0 false), [])), y_s.
  eexists (snd (serve y_Wrace y_F y_c (inr (y_msg 2 (y_par y_a 0 false), [])) y_s)), 8%nat, y_a, 0, y_opts.
  split. { intros t. unfold y_Wrace. destruct (t <? 8)%nat; [apply (y_real t)|].
    apply (y_real_of (fun p => if y_eq p y_a then inr y_other else y_stat p) (fun p => inr p) (y_stat_or y_a y_other) ltac:(eauto) t). }
  split; [apply y_bytes; vm_compute; reflexivity|].
  split; [vm_compute; reflexivity|]. split; [reflexivity|].
  split; [vm_compute; tauto|].
  intros [st [E1 [_ [E2 _]]]]. vm_compute in E1. inversion E1; subst. discriminate.
Qed.
Print Assumptions mount_race_refuted.

(* set-user-id programs and devices of the user's file system are honoured, if the peer
   does not ask otherwise; and the root of it need not be a directory (only one bit of the
   type is looked at: here the mode is that of a block device). *)
Theorem mount_safe_refuted : exists W w F c i s s' t path flags op,
  real_errors W /\ steady W w /\ input_bytes i /\ serve W F c i s = (Val tt, s') /\ d_trace s = [] /\
  In (EvMount t path flags op 0) (d_trace s') /\ cr_uid c <> 0 /\
  Z.testbit flags 1 = false /\ Z.testbit flags 2 = false /\ (o_mode op / 4096) mod 16 = 6.
Proof.
  pose (i := inr (y_msg 2 (mkMpar (Some y_a) 0 1000 100 25024 131072 false false), []) : input).
  exists y_W, y_world, y_F, y_c, i, y_s, (snd (serve y_W y_F y_c i y_s)), 8%nat, y_a, 0, (mkMopts 131072 9 25024 1000 100 false).
  split; [apply y_real|]. split; [intros t; auto|].
  split; [apply y_bytes; vm_compute; reflexivity|].
  split; [vm_compute; reflexivity|]. split; [reflexivity|].
  split; [vm_compute; tauto|]. split; [discriminate|]. vm_compute. auto.
Qed.
Print Assumptions mount_safe_refuted.

(* A message cut off is carried out as if it had been sent in full: the client asked for
   /m/aa, its first 132 bytes arrive, and /m/a is mounted. *)
Theorem mount_cut_refuted : exists W F c m n s s' t path path' flags op op',
  real_errors W /\ all_bytes m /\ (n < length m)%nat /\
  asks_mount F m path flags op false /\ path <> path' /\
  serve W F c (inr (firstn n m, [])) s = (Val tt, s') /\ d_trace s = [] /\
  In (EvMount t path' flags op' 0) (d_trace s').
Proof.
  pose (m := y_msg 2 (y_par y_aa 0 false)).
  exists y_W, y_F, y_c, m, 132%nat, y_s, (snd (serve y_W y_F y_c (inr (firstn 132 m, [])) y_s)), 8%nat, y_aa, y_a, 0, (mkMopts 131072 0 16832 1000 100 false), y_opts.
  split; [apply y_real|]. split; [apply (y_bytes m []); vm_compute; reflexivity|]. split; [vm_compute; lia|].
  split.
  { destruct (msg_setup y_F 2 (y_par y_aa 0 false)) as [e|mm] eqn:E; [discriminate|].
    assert (m = msg_enc mm) as -> by (unfold m, y_msg; rewrite E; reflexivity).
    apply (mount_carried y_F (y_par y_aa 0 false) y_aa mm); try (cbn; lia); auto.
    intros j Hj. cbn in Hj. destruct j as [|[|[|[|[|j]]]]]; cbn; lia. }
  split; [discriminate|]. split; [vm_compute; reflexivity|]. split; [reflexivity|]. vm_compute. tauto.
Qed.
Print Assumptions mount_cut_refuted.

(* A mount stays when the reply cannot be sent, though nobody has its descriptor. *)
Definition y_mute : world := mkWorld y_stat (fun _ => inr 61267) (fun p => inr p) (inr 9) 0 0 (fun _ => 0) 32.
Theorem mount_undone_refuted : exists W F c i s s' t path flags op t2 b,
  real_errors W /\ input_bytes i /\ serve W F c i s = (Val tt, s') /\ d_trace s = [] /\
  In (EvMount t path flags op 0) (d_trace s') /\ In (EvReply t2 b (o_fd op) 32) (d_trace s') /\
  closed (d_trace s') (o_fd op) /\ forall t' p f r, ~ In (EvUmount t' p f r) (d_trace s').
Proof.
  pose (i := inr (y_msg 2 (y_par y_a 0 false), []) : input).
  exists (fun _ => y_mute), y_F, y_c, i, y_s, (snd (serve (fun _ => y_mute) y_F y_c i y_s)), 8%nat, y_a, 0, y_opts, 9%nat.
  eexists (msg_enc (reply_of y_F (msg_dec (buf y_F (y_msg 2 (y_par y_a 0 false)))) 0)).
  split. { intros t. cbn. split; [apply y_stat_real|]. split; [discriminate|]. split; [discriminate|]. split; [discriminate|].
    split; [intros fd E; inversion E; lia|]. lia. }
  split; [apply y_bytes; vm_compute; reflexivity|].
  split; [vm_compute; reflexivity|]. split; [reflexivity|].
  split; [vm_compute; tauto|]. split; [vm_compute; tauto|]. split; [vm_compute; tauto|].
  intros t' p f r H. vm_compute in H. repeat (destruct H as [H|H]; [discriminate|]). destruct H.
Qed.
Print Assumptions mount_undone_refuted.

(* Two descriptors, or one with too short a message, stay open in the daemon for good; a
   descriptor whose close fails stops the daemon: any user who may connect can do both. *)
Theorem request_fds_refuted :
  (forall W F c b fds s, (length b < 56)%nat \/ (2 <= length fds)%nat ->
     exists s', serve W F c (inr (b, fds)) s = (Val tt, s') /\ d_trace s' = d_trace s) /\
  (forall W F c b fd s, (56 <= length b)%nat -> 0 < fd -> w_close (W (d_clock s)) fd <> 0 ->
     exists s', serve W F c (inr (b, [fd])) s = (Panic, s')).
Proof.
  split.
  - intros W F c b fds s H. unfold serve, dbind, set_ffd, recv_msg, MSGHDR_SIZE, dret.
    destruct (length b <? 56)%nat eqn:E; [eexists; split; reflexivity|]. apply Nat.ltb_ge in E.
    destruct fds as [|x [|y fds]]; cbn [length] in H; try lia. eexists; split; reflexivity.
  - intros W F c b fd s H1 H2 H3. unfold serve, dbind, set_ffd, recv_msg, MSGHDR_SIZE.
    destruct (length b <? 56)%nat eqn:E; [apply Nat.ltb_lt in E; lia|].
    unfold dbind. rewrite close_eq. replace (fd >? 0) with true by lia. cbn [d_clock].
    destruct (w_close (W (d_clock s)) fd =? 0) eqn:EC; [lia|]. eexists. reflexivity.
Qed.
Print Assumptions request_fds_refuted.

Example request_fds_refuted_ex :
  (fst (serve (fun _ => mkWorld y_stat (fun _ => inr 61267) (fun p => inr p) (inr 9) 0 0 (fun _ => 5) 0) y_F y_c (inr (repeat 0 2048, [7])) y_s),
   d_trace (snd (serve y_W y_F y_c (inr (y_msg 2 (y_par y_a 0 false), [7; 8])) y_s))) = (Panic, []).
Proof. vm_compute. reflexivity. Qed.
