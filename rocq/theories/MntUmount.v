(* The mount daemon: unmounting.  Model: MntModel.  Spec: MntSpec. *)
From Verif Require Import Base AddrModel MntModel MntSpec MntProofs MntToy MntProps.

Lemma um_wider : forall W F a a' b c path f, um_seen W F a b c path f -> (a' <= a)%nat -> um_seen W F a' b c path f.
Proof.
  intros W F a a' b c path f [H1 H2] Ha. split; [auto|].
  destruct H2 as [[H2 H3]|[[H2|[H2 H3]] H4]].
  - left. split; [eapply saw_more; eauto|auto].
  - right. split; [left; eapply saw_more; eauto|auto].
  - right. split; [right; split; [eapply saw_more; eauto|auto]|auto].
Qed.

Lemma umount_in_mid : forall W F a c i o tr t path f r, sshape W F a c i o tr -> In (EvUmount t path f r) tr ->
  exists b fds, i = inr (b, fds) /\ asks_umount F b path f /\ um_seen W F a t c path f /\ r = w_umount (W t).
Proof.
  intros W F a c i o tr t path f r HS HI.
  assert (K : forall b fds a' ob fo mid, i = inr (b, fds) -> (56 <= length b)%nat -> msg_check F (msg_dec (buf F b)) = 0 -> (a <= a')%nat ->
    cshape W F a' c (msg_dec (buf F b)) ob fo mid -> In (EvUmount t path f r) mid ->
    exists b fds, i = inr (b, fds) /\ asks_umount F b path f /\ um_seen W F a t c path f /\ r = w_umount (W t)).
  { intros b fds a' ob fo mid -> L M A C I. exists b, fds. split; [auto|].
    destruct C as [C|ob fo mid C C1|ob fo mid C C1].
    - destruct I.
    - destruct C1; [destruct I|..]; repeat (destruct I as [I|I]; [discriminate|]); destruct I.
    - destruct C1 as [|t' p' r' A1 A2 A3 A4]; [destruct I|]. destruct I as [I|[]]. inversion I; subst.
      split; [apply asks_u; auto|]. split; [eapply um_wider; eauto|auto]. }
  destruct HS; try contradiction.
  - apply front_only in HI. destruct HI; discriminate.
  - apply in_app_or in HI. destruct HI as [HI|HI]; [destruct (f0 >? 0); cbn [In] in HI; [destruct HI as [HI|[]]; discriminate|contradiction]|].
    destruct HI as [HI|HI]; [discriminate|]. apply in_app_or in HI. destruct HI as [HI|HI]; [eapply K; eauto|].
    apply front_only in HI. destruct HI; discriminate.
  - apply in_app_or in HI. destruct HI as [HI|HI]; [eapply K; eauto|]. apply front_only in HI. destruct HI; discriminate.
  - destruct HI as [HI|HI]; [discriminate|]. apply in_app_or in HI. destruct HI as [HI|HI]; [eapply K; eauto|].
    apply front_only in HI. destruct HI; discriminate.
Qed.

(* ---- C55: the mount daemon unmounts only what the asking user may unmount ---- *)
(* Whatever arrives and however the system changes: an unmount is what the message asked
   for, with no flags but force and detach; and either the root of a mount (or one that
   root may not look into) was seen there and the rules have no say or name the peer, or
   the mount was seen dead. *)
Theorem umount_checked : forall W F c i s o s', real_errors W -> input_bytes i -> serve W F c i s = (o, s') ->
  exists tr, d_trace s' = tr ++ d_trace s /\
  forall t path flags r, In (EvUmount t path flags r) tr ->
    (exists b fds, i = inr (b, fds) /\ asks_umount F b path flags) /\ r = w_umount (W t) /\ 0 <= flags <= 3 /\
    ((saw W (d_clock s) t (dead_root path) /\ ~ forced flags) \/
     ((saw W (d_clock s) t (live_root path) \/ (saw W (d_clock s) t (dead_root path) /\ forced flags)) /\ text_ruled F c path)).
Proof.
  intros W F c i s o s' RE HB HR. destruct (serve_spec W F RE c i s HB) as [o1 [s1 [tr [H1 [H2 H3]]]]].
  assert (s1 = s') by congruence. subst s1. exists tr. split; [auto|]. intros t path flags r HI.
  destruct (umount_in_mid _ _ _ _ _ _ _ _ _ _ _ H3 HI) as [b [fds [A1 [A2 [[A3 A4] A5]]]]]. split; [eauto|]. auto.
Qed.
Print Assumptions umount_checked.

Definition y_root : stat := mkStat 1 40 16877 2 1000.
Definition y_up : world := y_with (fun p => if y_eq p y_a then inr y_root else y_stat p) (fun p => inr p).
Example umount_checked_ex : (* the user of the rule; another; a path without a rule *)
  map (fun x => match serve (fun _ => y_up) y_F (fst x) (inr (y_msg 3 (y_par (snd x) 2 false), [])) y_s with (Val _, s) => map y_view (d_trace s) | _ => [] end)
    [(y_c, y_a); (mkCred 1001 100, y_a); (y_c, [47])] =
  [[EvReply 2 [0; 0; 0; 0] (-1) 0; EvUmount 1 y_a 2 0]; [EvReply 1 [24; 39; 0; 0] (-1) 0]; [EvReply 1 [2; 0; 0; 0] (-1) 0]].
Proof. vm_compute. reflexivity. Qed.

(* In plain words: if there are rules, no two for the same path and each path with one
   slash in front, and the path given is the canonical one of a mount that is not dead, then
   it is unmounted only for a user that the rules for this very path allow. *)
Definition one_slash (p : bytes) : Prop := exists x, p = 47 :: x /\ x <> [] /\ hd 0 x <> 47.
Lemma repeat_app_inj : forall i j (x y : bytes), hd 0 x <> 47 -> hd 0 y <> 47 -> x <> [] -> y <> [] ->
  repeat 47 i ++ x = repeat 47 j ++ y -> i = j /\ x = y.
Proof.
  induction i as [|i IH]; intros j x y Hx Hy Nx Ny E; destruct j as [|j]; cbn [repeat app] in E.
  - auto.
  - rewrite E in Hx. cbn [hd] in Hx. lia.
  - rewrite <- E in Hy. cbn [hd] in Hy. lia.
  - destruct (IH j x y Hx Hy Nx Ny) as [A B]; [congruence|]. auto.
Qed.
Lemma same_one : forall p q, one_slash p -> one_slash q -> same_text p q -> p = q.
Proof.
  intros p q [x [-> [Nx Hx]]] [y [-> [Ny Hy]]] [z [i [j [A [B [C D]]]]]].
  change (47 :: x) with (repeat 47 1 ++ x) in A. apply repeat_app_inj in A; auto. destruct A as [_ ->].
  change (47 :: y) with (repeat 47 1 ++ y) in B. apply repeat_app_inj in B; auto. destruct B as [_ ->]. reflexivity.
Qed.

Theorem umount_allowed : forall W w F c i s o s' rs, real_errors W -> steady W w -> input_bytes i ->
  cf_rules F = Some rs -> rs <> [] -> NoDup (map ru_path rs) -> (forall ru, In ru rs -> one_slash (ru_path ru)) ->
  serve W F c i s = (o, s') ->
  exists tr, d_trace s' = tr ++ d_trace s /\
  forall t path flags r, In (EvUmount t path flags r) tr ->
    one_slash path -> w_canon w path = inr path -> w_stat w path <> inl 107 -> may_umount w F c path.
Proof.
  intros W w F c i s o s' rs RE ST HB ER HN ND HS HR. destruct (umount_checked W F c i s o s' RE HB HR) as [tr [H1 H2]].
  exists tr. split; [auto|]. intros t path flags r HI OS HC NC. destruct (H2 _ _ _ _ HI) as [_ [_ [_ H3]]].
  assert (ND' : forall a b, ~ saw W a b (dead_root path)).
  { intros a b [x [_ K]]. unfold dead_root in K. destruct (ST x) as [X _]. rewrite X in K. contradiction. }
  destruct H3 as [[K _]|[_ TR]]; [destruct (ND' _ _ K)|]. unfold text_ruled in TR. rewrite ER in TR.
  destruct TR as [K|[K|[rs' [l [ru [q [K1 [K2 [K3 [K4 K5]]]]]]]]]]; [discriminate|congruence|].
  assert (HR' : rs' = rs) by congruence. rewrite HR' in K2. clear K1 HR'.
  assert (IR : In ru rs) by (rewrite K2; apply in_or_app; right; left; auto).
  assert (EP : ru_path ru = path) by (apply same_one; auto).
  exists rs, path. split; [auto|]. split; [auto|]. split; [exists ru; auto|].
  intros x Hx Ex. assert (x = ru); [|subst; auto].
  clear - ND Hx IR Ex EP. assert (E : ru_path x = ru_path ru) by congruence. clear Ex EP path.
  induction rs as [|y rs IH]; [destruct Hx|]. cbn [map] in ND. inversion ND as [|? ? N1 N2]; subst.
  destruct Hx as [->|Hx]; destruct IR as [->|IR]; auto.
  - exfalso. apply N1. rewrite E. apply in_map. auto.
  - exfalso. apply N1. rewrite <- E. apply in_map. auto.
Qed.
Print Assumptions umount_allowed.

Example umount_allowed_ex : one_slash y_a /\ NoDup (map ru_path [mkRule [47; 120] 7 false; mkRule y_a 1000 false]) /\
  may_umount y_up y_F y_c y_a /\ ~ may_umount y_up y_F (mkCred 1001 100) y_a.
Proof.
  split; [exists [109; 47; 97]; split; [reflexivity|]; split; [discriminate|cbn; lia]|].
  split; [repeat constructor; cbn; intros H; repeat (destruct H as [H|H]; [discriminate|]); auto|]. split.
  - exists [mkRule [47; 120] 7 false; mkRule y_a 1000 false], y_a. split; [reflexivity|]. split; [reflexivity|].
    split; [exists (mkRule y_a 1000 false); cbn; auto|]. intros ru [<-|[<-|[]]] E; [discriminate|right; reflexivity].
  - intros [rs [q [E1 [E2 [_ E3]]]]]. cbn in E2. assert (q = y_a) by (inversion E2; reflexivity). subst q.
    assert (rs = [mkRule [47; 120] 7 false; mkRule y_a 1000 false]) by (unfold y_F in E1; cbn [cf_rules] in E1; congruence). subst rs.
    destruct (E3 (mkRule y_a 1000 false)) as [K|K]; [right; left; auto|reflexivity|discriminate|discriminate].
Qed.

(* What the rules allow is unmounted, and the peer is told how it ended. *)
Theorem umount_granted : forall W w F c b fds s path flags, real_errors W -> steady W w ->
  all_bytes b -> (length fds <= 1)%nat -> (forall t x, w_close (W t) x = 0) -> (forall t, w_umount (W t) = w_umount w) ->
  asks_umount F b path flags -> 0 <= flags <= 3 ->
  (live_root path w \/ (dead_root path w /\ forced flags)) -> text_ruled F c path ->
  exists s' tr, serve W F c (inr (b, fds)) s = (Val tt, s') /\ d_trace s' = tr ++ d_trace s /\
    (exists t, In (EvUmount t path flags (w_umount w)) tr) /\
    (exists t r b', In (EvReply t b' (-1) r) tr /\ num 4 b' 12 = w_umount w).
Proof.
  intros W w F c b fds s path flags RE ST HB HF CL HU HA HFl HL HT.
  pose proof (au_wf _ _ _ _ HA) as WF. pose proof (wf_long _ _ WF) as LL.
  assert (EF : p_flags (to_params (msg_dec (buf F b))) = flags).
  { unfold to_params, msg_dec. cbn [p_flags g_flags]. rewrite buf_num by (auto; lia). apply (au_flags _ _ _ _ HA). }
  pose proof HA as HA'. rewrite <- EF in HA'. apply asks_u in HA'; [|auto]. destruct HA' as [A1 [A2 A3]].
  set (p := to_params (msg_dec (buf F b))) in *.
  destruct (serve_ok W F CL c b fds s (- w_umount w) (fun t => [EvUmount (Nat.pred t) path flags (w_umount w)]) (-1) LL HF A1)
    as [s' [t [t' [r [R1 R2]]]]].
  { intros s0 H0. unfold exec_request. rewrite A2. unfold CMD_HANDSHAKE, CMD_MOUNT, CMD_UMOUNT.
    change (3 =? 1) with false. change (3 =? 2) with false. change (3 =? 3) with true. cbv iota. fold p.
    unfold exec_umount. rewrite A3.
    assert (CU : check_umount W F c p path s0 = (Val 0, tick s0)).
    { unfold check_umount. rewrite EF.
      assert (Z.ldiff flags UMNT_MASK = 0 /\ Z.lor flags UMNT_MASK = UMNT_MASK) as [-> ->].
      { assert (flags = 0 \/ flags = 1 \/ flags = 2 \/ flags = 3) as [->|[->|[->| ->]]] by lia; split; reflexivity. }
      change (negb (0 =? 0)) with false. rewrite Z.eqb_refl. cbn [negb]. cbv iota zeta.
      pose proof (force_iff flags HFl) as FI.
      assert (CP : check_umount_path W path (cr_uid c) (Z.land flags 1 >? 0) s0 = (Val 0, tick s0)).
      { unfold check_umount_path, check_mntpoint, dbind. rewrite sys_eq. destruct (ST (d_clock s0)) as [-> _].
        destruct HL as [[E|[st [E1 [E2 E3]]]]|[E FO]].
        - rewrite E. reflexivity.
        - rewrite E1. apply is_dir_iff in E2. rewrite E2. cbn [negb]. unfold INO_ROOT. rewrite E3. reflexivity.
        - unfold dead_root in E. rewrite E. apply FI in FO. rewrite FO. reflexivity. }
      unfold dbind. rewrite CP. change (0 =? 0) with true. cbv iota. unfold dret. apply text_rule_iff in HT. rewrite HT. reflexivity. }
    rewrite (bind_val _ _ _ _ _ _ _ CU). change (negb (0 =? 0) && negb (0 =? - xNOTCONN)) with false. cbv iota.
    unfold dbind, get_clock, dlog, dret, sys. cbn [d_clock d_trace d_ffd tick]. rewrite HU, EF.
    eexists. split; [reflexivity|]. cbn [d_trace d_ffd d_clock Nat.pred]. split; [reflexivity|auto]. }
  eexists s', _. split; [exact R1|]. split; [exact R2|]. split.
  - exists (Nat.pred t'). apply in_or_app. right. right. left. reflexivity.
  - exists t, r. eexists. split; [apply in_or_app; right; left; reflexivity|].
    assert (0 <= w_umount w < 4096) by (rewrite <- (HU 0%nat); destruct (RE 0%nat) as [_ [_ [_ [_ [_ [_ X]]]]]]; auto).
    rewrite reply_status by (unfold small; lia). lia.
Qed.
Print Assumptions umount_granted.

Example umount_granted_ex : asks_umount y_F (y_msg 3 (y_par y_a 2 false)) y_a 2 /\ live_root y_a y_up /\ text_ruled y_F y_c y_a.
Proof.
  split.
  - split; try (vm_compute; reflexivity).
    + split; try (vm_compute; reflexivity); [vm_compute; lia|vm_compute; discriminate].
    + split; [discriminate|cbn; lia| |vm_compute; reflexivity]. intros i Hi. cbn in Hi.
      destruct i as [|[|[|[|i]]]]; [vm_compute; split; [reflexivity|discriminate]..|lia].
  - split; [right; exists y_root; split; [reflexivity|]; split; [vm_compute; reflexivity|reflexivity]|].
    apply text_rule_iff. vm_compute. reflexivity.
Qed.

(* ---- what does not hold ---- *)
(* Rules are kept, whatever mounts are there: any user may unmount a dead mount which the
   rules keep for another, if they do not ask for force. *)
Definition y_dead : world := y_with (fun p => if y_eq p y_a then inl 107 else y_stat p) (fun p => inr p).
Theorem umount_dead_refuted : exists W w F c i s s' t path flags,
  real_errors W /\ steady W w /\ input_bytes i /\ serve W F c i s = (Val tt, s') /\ d_trace s = [] /\
  In (EvUmount t path flags 0) (d_trace s') /\ w_canon w path = inr path /\
  (exists rs ru, cf_rules F = Some rs /\ In ru rs /\ ru_path ru = path /\ ~ for_user ru c) /\ ~ may_umount w F c path.
Proof.
  pose (i := inr (y_msg 3 (y_par y_a 0 false), []) : input). pose (c := mkCred 1001 100).
  exists (fun _ => y_dead), y_dead, y_F, c, i, y_s, (snd (serve (fun _ => y_dead) y_F c i y_s)), 1%nat, y_a, 0.
  split. { apply y_real_of; [|eauto]. intros p e H. destruct (y_eq p y_a); [inversion H; lia|]. eapply y_stat_real; eauto. }
  split; [intros t; auto|]. split; [apply y_bytes; vm_compute; reflexivity|].
  split; [vm_compute; reflexivity|]. split; [reflexivity|]. split; [vm_compute; tauto|]. split; [reflexivity|].
  split. { exists [mkRule [47; 120] 7 false; mkRule y_a 1000 false], (mkRule y_a 1000 false).
    split; [reflexivity|]. split; [right; left; auto|]. split; [reflexivity|]. intros [K|K]; discriminate. }
  intros [rs [q [E1 [E2 [_ E3]]]]]. cbn in E2. assert (q = y_a) by (inversion E2; reflexivity). subst q.
  assert (rs = [mkRule [47; 120] 7 false; mkRule y_a 1000 false]) by (unfold y_F in E1; cbn [cf_rules] in E1; congruence). subst rs.
  destruct (E3 (mkRule y_a 1000 false)) as [K|K]; [right; left; auto|reflexivity|discriminate|discriminate].
Qed.
Print Assumptions umount_dead_refuted.

(* With an empty list of rules nobody may mount, and anybody may unmount any directory that
   has the inode number of a root (no matter the file system). *)
Theorem umount_norules_refuted : exists W w F c i s s' t path flags,
  real_errors W /\ steady W w /\ input_bytes i /\ cf_rules F = Some [] /\ serve W F c i s = (Val tt, s') /\ d_trace s = [] /\
  In (EvUmount t path flags 0) (d_trace s') /\ cr_uid c <> 0 /\ (exists st, w_stat w path = inr st /\ t_uid st <> cr_uid c) /\
  forall path' flags' op, ~ may_mount w F c path' flags' op.
Proof.
  pose (i := inr (y_msg 3 (y_par y_a 0 false), []) : input). pose (c := mkCred 1001 100). pose (F := mkConf (Some []) 1 0 4096).
  exists (fun _ => y_up), y_up, F, c, i, y_s, (snd (serve (fun _ => y_up) F c i y_s)), 1%nat, y_a, 0.
  split. { apply y_real_of; [|eauto]. apply y_stat_or. }
  split; [intros t; auto|]. split; [apply y_bytes; vm_compute; reflexivity|]. split; [reflexivity|].
  split; [vm_compute; reflexivity|]. split; [reflexivity|]. split; [vm_compute; tauto|]. split; [discriminate|].
  split; [exists y_root; split; [reflexivity|discriminate]|].
  intros path' flags' op [_ _ _ _ [rs [l [ru [r [st [D1 [D2 _]]]]]]]]. assert (rs = []) by (cbn in D1; congruence). subst rs.
  destruct l; discriminate.
Qed.
Print Assumptions umount_norules_refuted.

(* The rule is found by the text of the path, and the kernel follows links: a user with a
   rule for a path of their own, where they have put a link, unmounts what the rules keep
   for another. *)
Definition y_link : bytes := [47; 104; 47; 98].              (* /h/b *)
Definition y_linked : world :=
  y_with (fun p => if y_eq p y_link then inr y_root else if y_eq p y_a then inr y_root else y_stat p)
         (fun p => if y_eq p y_link then inr y_a else inr p).
Theorem umount_link_refuted : exists W w F c i s s' t path q flags,
  real_errors W /\ steady W w /\ input_bytes i /\ serve W F c i s = (Val tt, s') /\ d_trace s = [] /\
  In (EvUmount t path flags 0) (d_trace s') /\ w_canon w path = inr q /\
  (exists rs ru, cf_rules F = Some rs /\ In ru rs /\ ru_path ru = q /\ ~ for_user ru c) /\ ~ may_umount w F c path.
Proof.
  pose (i := inr (y_msg 3 (y_par y_link 0 false), []) : input). pose (c := mkCred 1001 100).
  pose (rules := [mkRule y_a 1000 false; mkRule y_link 1001 false]). pose (F := mkConf (Some rules) 1 0 4096).
  exists (fun _ => y_linked), y_linked, F, c, i, y_s, (snd (serve (fun _ => y_linked) F c i y_s)), 1%nat, y_link, y_a, 0.
  split. { apply y_real_of; [|intros p; destruct (y_eq p y_link); eauto].
    intros p e H. destruct (y_eq p y_link); [discriminate|]. eapply y_stat_or; eauto. }
  split; [intros t; auto|]. split; [apply y_bytes; vm_compute; reflexivity|].
  split; [vm_compute; reflexivity|]. split; [reflexivity|]. split; [vm_compute; tauto|]. split; [reflexivity|].
  split. { exists rules, (mkRule y_a 1000 false).
    split; [reflexivity|]. split; [left; auto|]. split; [reflexivity|]. intros [K|K]; discriminate. }
  intros [rs [q [E1 [E2 [_ E3]]]]]. cbn in E2. assert (q = y_a) by (inversion E2; reflexivity). subst q.
  assert (rs = rules) by (cbn in E1; congruence). subst rs.
  destruct (E3 (mkRule y_a 1000 false)) as [K|K]; [left; auto|reflexivity|discriminate|discriminate].
Qed.
Print Assumptions umount_link_refuted.
