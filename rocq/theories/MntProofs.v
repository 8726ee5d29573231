(* The mount daemon: proofs *)
From Verif Require Import Base AddrModel AddrProofs MntModel MntSpec.

(* ---- bytes ---- *)
Lemma nth_skipn : forall (l : bytes) i k, nth k (skipn i l) 0 = nth (i + k) l 0.
Proof.
  induction l as [|x l IH]; intros i k.
  - rewrite skipn_nil. destruct k; [destruct (i + 0)%nat|destruct (i + S k)%nat]; reflexivity.
  - destruct i; cbn [skipn Nat.add nth]; [reflexivity|apply IH].
Qed.

Lemma nth_firstn : forall (l : bytes) n k, (k < n)%nat -> nth k (firstn n l) 0 = nth k l 0.
Proof.
  induction l as [|x l IH]; intros n k H.
  - rewrite firstn_nil. reflexivity.
  - destruct n; [lia|]. destruct k; cbn [firstn nth]; [reflexivity|apply IH; lia].
Qed.

Lemma at_sub : forall i n b k, (k < n)%nat -> at_ (sub i n b) k = at_ b (i + k).
Proof. intros. unfold at_, sub. rewrite nth_firstn by auto. apply nth_skipn. Qed.

Lemma skipn_cons : forall (b : bytes) i, (i < length b)%nat -> skipn i b = at_ b i :: skipn (S i) b.
Proof.
  induction b as [|x b IH]; intros i H; cbn [length] in H; [lia|].
  destruct i; [reflexivity|]. cbn [skipn]. rewrite IH by lia. reflexivity.
Qed.

Lemma le_dec_num : forall n b i, (i + n <= length b)%nat -> le_dec (sub i n b) = num n b i.
Proof.
  unfold sub. induction n; intros b i H; [reflexivity|].
  rewrite skipn_cons by lia. cbn [firstn le_dec num]. rewrite IHn by lia. reflexivity.
Qed.

Lemma num_ext : forall n a b i, (forall k, (i <= k < i + n)%nat -> at_ a k = at_ b k) -> num n a i = num n b i.
Proof.
  induction n; intros a b i H; [reflexivity|]. cbn [num]. rewrite (H i) by lia.
  rewrite (IHn a b (S i)); [reflexivity|]. intros; apply H; lia.
Qed.

Lemma at_app1 : forall a b i, (i < length a)%nat -> at_ (a ++ b) i = at_ a i.
Proof. intros. unfold at_. apply app_nth1. auto. Qed.
Lemma at_app2 : forall a b i, (length a <= i)%nat -> at_ (a ++ b) i = at_ b (i - length a).
Proof. intros. unfold at_. apply app_nth2. auto. Qed.
Lemma at_zeros : forall n i, at_ (repeat 0 n) i = 0.
Proof. unfold at_. induction n; intros i; destruct i; cbn [repeat nth]; auto. Qed.
Lemma at_over : forall b i, (length b <= i)%nat -> at_ b i = 0.
Proof. intros. unfold at_. apply nth_overflow. auto. Qed.

(* the message after a receive *)
Definition buf (F : conf) (b : bytes) : bytes := b ++ skipn (length b) (msg_enc (msg_init F 0)).

Lemma init_len : forall F c, length (msg_enc (msg_init F c)) = 2048%nat.
Proof.
  intros. unfold msg_enc, msg_init.
  cbn [g_magic g_major g_minor g_cmd g_status g_flags g_uid g_gid g_mode g_maxread g_other g_check g_res g_path].
  rewrite !app_length, !le_enc_length, !repeat_length. reflexivity.
Qed.

Lemma init_tail : forall F c i, (42 <= i)%nat -> at_ (msg_enc (msg_init F c)) i = 0.
Proof.
  intros F c i H. unfold msg_enc, msg_init.
  cbn [g_magic g_major g_minor g_cmd g_status g_flags g_uid g_gid g_mode g_maxread g_other g_check g_res g_path].
  repeat (rewrite at_app2; [|rewrite ?le_enc_length, ?repeat_length; lia]; rewrite ?le_enc_length, ?repeat_length).
  rewrite <- repeat_app. apply at_zeros.
Qed.

Lemma buf_len : forall F b, (2048 <= length (buf F b))%nat.
Proof. intros. unfold buf. rewrite app_length, skipn_length, init_len. lia. Qed.

Lemma buf_at : forall F b i, (56 <= length b)%nat -> at_ (buf F b) i = at_ b i.
Proof.
  intros F b i H. unfold buf. destruct (Nat.lt_ge_cases i (length b)).
  - apply at_app1. auto.
  - rewrite at_app2 by auto. unfold at_ at 1. rewrite nth_skipn.
    replace (length b + (i - length b))%nat with i by lia.
    fold (at_ (msg_enc (msg_init F 0)) i). rewrite init_tail by lia. symmetry. apply at_over. auto.
Qed.

Lemma buf_num : forall F b n i, (56 <= length b)%nat -> (i + n <= 2048)%nat ->
  le_dec (sub i n (buf F b)) = num n b i.
Proof.
  intros. rewrite le_dec_num by (pose proof (buf_len F b); lia).
  apply num_ext. intros; apply buf_at; auto.
Qed.

(* ---- the path ---- *)
Lemma cstr_spec : forall b, (length (cstr b) <= length b)%nat /\
  (forall i, (i < length (cstr b))%nat -> at_ (cstr b) i = at_ b i /\ at_ b i <> 0) /\
  ((length (cstr b) < length b)%nat -> at_ b (length (cstr b)) = 0).
Proof.
  induction b as [|x b [H1 [H2 H3]]].
  - cbn [cstr length]. split; [lia|]. split; [intros; lia|intros; lia].
  - cbn [cstr]. destruct (x =? 0) eqn:E.
    + cbn [length]. split; [lia|]. split; [intros; lia|]. intros _. unfold at_. cbn [nth]. lia.
    + cbn [length]. split; [lia|]. split.
      * intros i Hi. destruct i; unfold at_; cbn [nth]; [lia|]. apply H2. lia.
      * intros Hl. unfold at_. cbn [nth]. apply H3. lia.
Qed.

Lemma cstr_is : forall p b, (length p < length b)%nat ->
  (forall i, (i < length p)%nat -> at_ b i = at_ p i /\ at_ p i <> 0) -> at_ b (length p) = 0 -> cstr b = p.
Proof.
  induction p as [|y p IH]; intros b Hl Ht He; destruct b as [|x b]; cbn [length] in Hl; try lia.
  - unfold at_ in He. cbn [length nth] in He. subst. reflexivity.
  - destruct (Ht 0%nat ltac:(cbn [length]; lia)) as [A B]. unfold at_ in A, B. cbn [nth] in A, B. subst x.
    cbn [cstr]. destruct (y =? 0) eqn:E; [lia|]. f_equal. apply IH; [lia| |].
    + intros i Hi. destruct (Ht (S i) ltac:(cbn [length]; lia)) as [C D]. unfold at_ in *. cbn [nth] in C, D. auto.
    + unfold at_ in *. cbn [length nth] in He. auto.
Qed.

Lemma path_says : forall F b path, (56 <= length b)%nat ->
  (msg_path (msg_dec (buf F b)) = Some path <-> says_path b path).
Proof.
  intros F b path H. unfold msg_path, msg_dec. cbn [g_path].
  assert (L : length (sub 128 1920 (buf F b)) = 1920%nat).
  { unfold sub. rewrite firstn_length, skipn_length. pose proof (buf_len F b). lia. }
  assert (A : forall i, (i < 1920)%nat -> at_ (sub 128 1920 (buf F b)) i = at_ b (128 + i)).
  { intros. rewrite at_sub by auto. apply buf_at. auto. }
  set (x := sub 128 1920 (buf F b)) in *. clearbody x. unfold MNTPATH_MAX.
  pose proof (cstr_spec x) as [C1 [C2 C3]]. split.
  - destruct (negb _ && _) eqn:E; [|discriminate]. intros K. inversion K. subst path. clear K.
    rewrite L in *. split.
    + intros Z. rewrite Z in E. cbn [length] in E. lia.
    + lia.
    + intros i Hi. destruct (C2 i Hi) as [D1 D2]. rewrite A in * by lia. split; [auto|]. rewrite D1. auto.
    + rewrite <- A by lia. apply C3. lia.
  - intros [Hn Hf Ht He].
    assert (cstr x = path) as ->.
    { apply cstr_is; [lia| |].
      - intros i Hi. rewrite A by lia. apply Ht. auto.
      - rewrite A by lia. auto. }
    destruct path as [|y p]; [congruence|].
    replace (negb (Z.of_nat (length (y :: p)) =? 0) && (Z.of_nat (length (y :: p)) <? 1920)) with true; [reflexivity|].
    symmetry. apply andb_true_iff. cbn [length] in *. lia.
Qed.

(* ---- runs ---- *)
Lemma bind_val : forall A B (m : D A) (k : A -> D B) s a s', m s = (Val a, s') -> dbind m k s = k a s'.
Proof. intros. unfold dbind. rewrite H. reflexivity. Qed.

Definition quiet (s s' : dst) : Prop :=
  d_trace s' = d_trace s /\ d_ffd s' = d_ffd s /\ (d_clock s <= d_clock s')%nat.
Lemma quiet_refl : forall s, quiet s s. Proof. unfold quiet. auto. Qed.
Lemma quiet_trans : forall a b c, quiet a b -> quiet b c -> quiet a c.
Proof. unfold quiet. intros a b c [? [? ?]] [? [? ?]]. split; [congruence|]. split; [congruence|lia]. Qed.
Lemma quiet_clock : forall a b, quiet a b -> (d_clock a <= d_clock b)%nat.
Proof. intros a b [_ [_ ?]]. auto. Qed.

Section Runs.
Variable W : nat -> world.
Variable F : conf.
Hypothesis RE : real_errors W.

Lemma saw_more : forall a b a' b' P, saw W a b P -> (a' <= a)%nat -> (b <= b')%nat -> saw W a' b' P.
Proof. intros a b a' b' P [t [H1 H2]] Ha Hb. exists t. split; [lia|auto]. Qed.

Definition tick (s : dst) : dst := mkDst (S (d_clock s)) (d_trace s) (d_ffd s).
Lemma tick_quiet : forall s, quiet s (tick s).
Proof. unfold quiet, tick. intros. cbn [d_clock d_trace d_ffd]. auto. Qed.
Lemma sys_eq : forall A (f : world -> A) s, sys W f s = (Val (f (W (d_clock s))), tick s).
Proof. reflexivity. Qed.
Lemma saw_now : forall s (P : world -> Prop), P (W (d_clock s)) -> saw W (d_clock s) (d_clock (tick s)) P.
Proof. intros. exists (d_clock s). split; [cbn [tick d_clock]; lia|auto]. Qed.

Lemma is_dir_iff : forall st, is_dir (t_mode st) = true <-> directory st.
Proof.
  intros st. unfold is_dir, directory. rewrite Z.eqb_eq.
  replace (Z.land (t_mode st) 61440) with (((t_mode st / 4096) mod 16) * 4096); [lia|].
  change 61440 with (Z.shiftl (Z.ones 4) 12). change 4096 with (2 ^ 12). change 16 with (2 ^ 4).
  rewrite <- Z.shiftr_div_pow2 by lia. rewrite <- Z.land_ones by lia. rewrite <- Z.shiftl_mul_pow2 by lia.
  apply Z.bits_inj'. intros n Hn. rewrite Z.land_spec.
  destruct (Z.lt_ge_cases n 12).
  - rewrite !Z.shiftl_spec_low by lia. rewrite andb_false_r. reflexivity.
  - rewrite !Z.shiftl_spec by lia. rewrite Z.land_spec, Z.shiftr_spec by lia. do 2 f_equal. lia.
Qed.

Lemma fstype_iff : forall t, check_fstype t = 0 <-> In t backing.
Proof.
  intros t. unfold check_fstype, fsinfo, backing. cbn [List.find fst snd].
  unfold EsMOUNT, EsINVAL. cbn [In].
  repeat match goal with |- context [?a =? t] => let E := fresh in destruct (a =? t) eqn:E;
    [apply Z.eqb_eq in E; subst t; cbn [orb negb]; lia|] end.
  lia.
Qed.

Lemma same_bytes_iff : forall a b, same_bytes a b = true <-> a = b.
Proof.
  induction a as [|x a IH]; intros b; destruct b as [|y b]; cbn [same_bytes]; split; intros H; try discriminate; auto.
  - apply andb_true_iff in H. destruct H as [H1 H2]. apply IH in H2. apply Z.eqb_eq in H1. congruence.
  - inversion H; subst. apply andb_true_iff. split; [apply Z.eqb_refl|apply IH; auto].
Qed.

Lemma trim_spec : forall p, exists i, p = repeat 47 i ++ trim_slash p /\ (trim_slash p = [] \/ hd 0 (trim_slash p) <> 47).
Proof.
  induction p as [|x p [i [H1 H2]]]; cbn [trim_slash].
  - exists 0%nat. auto.
  - destruct (x =? 47) eqn:E.
    + exists (S i). cbn [repeat app]. apply Z.eqb_eq in E. subst x. split; [f_equal; auto|auto].
    + exists 0%nat. split; [reflexivity|]. right. cbn [hd]. lia.
Qed.
Lemma trim_of : forall i x, hd 0 x <> 47 -> trim_slash (repeat 47 i ++ x) = x.
Proof.
  induction i; intros x H; cbn [repeat app].
  - destruct x as [|y x]; [reflexivity|]. cbn [trim_slash hd] in *. destruct (y =? 47) eqn:E; [lia|reflexivity].
  - cbn [trim_slash]. change (47 =? 47) with true. cbv iota. auto.
Qed.
Lemma equal_mntpath_iff : forall a b, equal_mntpath a b = true <-> same_text a b.
Proof.
  intros a b. unfold equal_mntpath, same_text. rewrite andb_true_iff, same_bytes_iff. split.
  - intros [H1 H2]. destruct (trim_spec a) as [i [A1 A2]]. destruct (trim_spec b) as [j [B1 B2]].
    exists (trim_slash a), i, j. rewrite H2 in *. split; [auto|]. split; [auto|].
    assert (trim_slash b <> []) by (intros K; rewrite K in H1; cbn [length] in H1; lia).
    split; [auto|]. destruct A2; [contradiction|auto].
  - intros [x [i [j [-> [-> [H1 H2]]]]]]. rewrite !trim_of by auto. split; [|reflexivity].
    destruct x; [congruence|]. cbn [length]. lia.
Qed.

Lemma by_stat_spec : forall p st s, exists b, equal_by_stat W p st s = (Val b, tick s) /\
  (b = true <-> names (W (d_clock s)) p st).
Proof.
  intros p st s. unfold equal_by_stat. rewrite (bind_val _ _ _ _ _ _ _ (sys_eq _ _ s)).
  destruct (w_stat (W (d_clock s)) p) as [e|st1] eqn:E.
  - exists false. split; [reflexivity|]. split; [discriminate|]. intros [x [K _]]. congruence.
  - eexists. split; [reflexivity|]. unfold names. rewrite !andb_true_iff, !Z.eqb_eq. split.
    + intros [[? ?] ?]. exists st1. auto.
    + intros [x [K ?]]. assert (x = st1) by congruence. subst. tauto.
Qed.

Lemma find_rule_spec : forall rs st s, exists m s', find_rule_by_stat W rs st s = (Val m, s') /\ quiet s s' /\
  match m with
  | None => forall x, In x rs -> saw W (d_clock s) (d_clock s') (fun w => ~ names w (ru_path x) st)
  | Some ru => exists l r, rs = l ++ ru :: r /\ saw W (d_clock s) (d_clock s') (fun w => names w (ru_path ru) st) /\
                 forall x, In x l -> saw W (d_clock s) (d_clock s') (fun w => ~ names w (ru_path x) st)
  end.
Proof.
  induction rs as [|r0 rs IH]; intros st s; cbn [find_rule_by_stat].
  - exists None, s. split; [reflexivity|]. split; [apply quiet_refl|]. intros x [].
  - destruct (by_stat_spec (ru_path r0) st s) as [b [E1 E2]]. rewrite (bind_val _ _ _ _ _ _ _ E1).
    destruct b.
    + exists (Some r0), (tick s). split; [reflexivity|]. split; [apply tick_quiet|].
      exists [], rs. split; [reflexivity|]. split; [|intros x []].
      apply saw_now. tauto.
    + assert (N : ~ names (W (d_clock s)) (ru_path r0) st) by (intros K; apply E2 in K; discriminate).
      destruct (IH st (tick s)) as [m [s' [H1 [H2 H3]]]]. exists m, s'. split; [auto|].
      pose proof (quiet_clock _ _ H2) as Q. pose proof (quiet_clock _ _ (tick_quiet s)) as Q0.
      split; [eapply quiet_trans; [apply tick_quiet|auto]|].
      assert (N' : saw W (d_clock s) (d_clock s') (fun w => ~ names w (ru_path r0) st)).
      { eapply saw_more; [apply saw_now with (s := s); exact N|lia|lia]. }
      destruct m as [ru|].
      * destruct H3 as [l [r [A1 [A2 A3]]]]. exists (r0 :: l), r. split; [rewrite A1; reflexivity|].
        split; [eapply saw_more; [exact A2|lia|lia]|].
        intros x [<-|Hx]; [auto|]. eapply saw_more; [apply A3; auto|lia|lia].
      * intros x [<-|Hx]; [auto|]. eapply saw_more; [apply H3; auto|lia|lia].
Qed.

Lemma for_user_iff : forall ru c, (negb (ru_uid ru =? UID_NONE) && negb (ru_uid ru =? cr_uid c)) = false <-> for_user ru c.
Proof. intros. unfold for_user, UID_NONE. change (2 ^ 32 - 1) with 4294967295. lia. Qed.

Definition cm_rule_at (a b : nat) (c : cred) (path : bytes) : Prop :=
  exists rs l ru r st, cf_rules F = Some rs /\ rs = l ++ ru :: r /\
    saw W a b (fun w => w_stat w path = inr st) /\ saw W a b (fun w => names w (ru_path ru) st) /\
    (forall x, In x l -> saw W a b (fun w => ~ names w (ru_path x) st)) /\ for_user ru c.

Lemma mount_rule_spec : forall c path s, exists e s', check_mount_rule W F c path s = (Val e, s') /\ quiet s s' /\
  (e = 0 -> cm_rule_at (d_clock s) (d_clock s') c path).
Proof.
  intros c path s. unfold check_mount_rule.
  destruct (cf_rules F) as [rs|] eqn:ER.
  2:{ eexists _, s. split; [reflexivity|]. split; [apply quiet_refl|]. unfold EsMOUNT. lia. }
  rewrite (bind_val _ _ _ _ _ _ _ (sys_eq _ _ s)).
  destruct (w_stat (W (d_clock s)) path) as [e|st] eqn:E.
  - exists (- e), (tick s). split; [reflexivity|]. split; [apply tick_quiet|]. intros.
    destruct (RE (d_clock s)) as [R _]. pose proof (R _ _ E). lia.
  - destruct (find_rule_spec rs st (tick s)) as [m [s' [H1 [H2 H3]]]].
    rewrite (bind_val _ _ _ _ _ _ _ H1).
    pose proof (quiet_clock _ _ H2) as Q. pose proof (quiet_clock _ _ (tick_quiet s)) as Q0.
    assert (Q1 : quiet s s') by (eapply quiet_trans; [apply tick_quiet|auto]).
    destruct m as [ru|].
    + destruct H3 as [l [r [A1 [A2 A3]]]].
      destruct (negb (ru_uid ru =? UID_NONE) && negb (ru_uid ru =? cr_uid c)) eqn:U.
      * eexists _, s'. split; [reflexivity|]. split; [auto|]. unfold EsMOUNT. lia.
      * exists 0, s'. split; [reflexivity|]. split; [auto|]. intros _.
        exists rs, l, ru, r, st. split; [auto|]. split; [auto|].
        split; [eapply saw_more; [apply (saw_now s (fun w => w_stat w path = inr st)); exact E|lia|lia]|].
        split; [eapply saw_more; [exact A2|lia|lia]|].
        split; [intros x Hx; eapply saw_more; [apply A3; auto|lia|lia]|]. apply for_user_iff. auto.
    + eexists _, s'. split; [reflexivity|]. split; [auto|]. unfold EsMOUNT. lia.
Qed.

Lemma canon_spec : forall path s, exists e s', check_canon W path s = (Val e, s') /\ quiet s s' /\
  (e = 0 -> saw W (d_clock s) (d_clock s') (fun w => w_canon w path = inr path)).
Proof.
  intros path s. unfold check_canon. destruct (Z.of_nat (length path) =? 0).
  - eexists _, s. split; [reflexivity|]. split; [apply quiet_refl|]. unfold EsINVAL. lia.
  - rewrite (bind_val _ _ _ _ _ _ _ (sys_eq _ _ s)).
    destruct (w_canon (W (d_clock s)) path) as [e|q] eqn:E.
    + eexists _, _. split; [reflexivity|]. split; [apply tick_quiet|]. intros.
      destruct (RE (d_clock s)) as [_ [_ [R _]]]. pose proof (R _ _ E). lia.
    + destruct (same_bytes path q) eqn:B.
      * apply same_bytes_iff in B. subst q. eexists _, _. split; [reflexivity|]. split; [apply tick_quiet|].
        intros _. apply (saw_now s (fun w => w_canon w path = inr path)). auto.
      * eexists _, _. split; [reflexivity|]. split; [apply tick_quiet|]. unfold EsINVAL. lia.
Qed.

Lemma mntpoint_spec : forall path c s, exists e s', check_mntpoint W path (cr_uid c) true s = (Val e, s') /\ quiet s s' /\
  (e = 0 -> saw W (d_clock s) (d_clock s') (own_dir c path) /\ saw W (d_clock s) (d_clock s') (backed path)).
Proof.
  intros path c s. unfold check_mntpoint. rewrite (bind_val _ _ _ _ _ _ _ (sys_eq _ _ s)).
  destruct (w_stat (W (d_clock s)) path) as [e|st] eqn:E.
  - rewrite andb_false_r. eexists _, _. split; [reflexivity|]. split; [apply tick_quiet|]. intros.
    destruct (RE (d_clock s)) as [R _]. pose proof (R _ _ E). lia.
  - assert (K : forall e, 0 < e -> exists e0 s', (dret (- e) : D Z) (tick s) = (Val e0, s') /\ quiet s s' /\
      (e0 = 0 -> saw W (d_clock s) (d_clock s') (own_dir c path) /\ saw W (d_clock s) (d_clock s') (backed path))).
    { intros e He. eexists _, _. split; [reflexivity|]. split; [apply tick_quiet|]. lia. }
    destruct (is_dir (t_mode st)) eqn:ED; cbn [negb]; [|apply K; unfold EsNOTDIR; lia].
    destruct (t_nlink st >? 2) eqn:EN; [apply K; unfold EsNOTEMPTY; lia|].
    destruct (t_ino st =? INO_ROOT) eqn:EI; [apply K; unfold EsBUSY; lia|].
    destruct (cr_uid c =? t_uid st) eqn:EU; cbn [negb]; [|apply K; unfold EsMOUNT; lia].
    rewrite (bind_val _ _ _ _ _ _ _ (sys_eq _ _ (tick s))).
    assert (Q : quiet s (tick (tick s))) by (eapply quiet_trans; apply tick_quiet).
    destruct (w_statfs (W (d_clock (tick s))) path) as [e|ty] eqn:EF.
    + eexists _, _. split; [reflexivity|]. split; [auto|]. intros.
      destruct (RE (d_clock (tick s))) as [_ [R _]]. pose proof (R _ _ EF). lia.
    + eexists _, _. split; [reflexivity|]. split; [auto|]. intros T. apply fstype_iff in T.
      cbn [tick d_clock] in *. split.
      * exists (d_clock s). split; [lia|]. exists st. split; [auto|]. apply is_dir_iff in ED.
        unfold INO_ROOT in EI. split; [auto|]. split; [lia|]. lia.
      * exists (S (d_clock s)). split; [lia|]. exists ty. auto.
Qed.

Lemma mask_bits : forall i, 0 <= i -> (Z.testbit MNT_MASK i = true <-> In i [0; 1; 2; 3; 25]).
Proof.
  intros i Hi. destruct (Z.lt_ge_cases i 26).
  - assert (K : forallb (fun n => Bool.eqb (Z.testbit MNT_MASK (Z.of_nat n)) (existsb (Z.eqb (Z.of_nat n)) [0; 1; 2; 3; 25])) (seq 0 26) = true)
      by (vm_compute; reflexivity).
    rewrite forallb_forall in K. specialize (K (Z.to_nat i)). rewrite Z2Nat.id in K by lia.
    assert (In (Z.to_nat i) (seq 0 26)) as I by (apply in_seq; lia). apply K in I. apply eqb_prop in I. rewrite I.
    cbn [existsb In]. lia.
  - assert (Z.testbit MNT_MASK i = false) as ->.
    { apply Z.bits_above_log2; [unfold MNT_MASK; lia|]. change (Z.log2 MNT_MASK) with 25. lia. }
    cbn [In]. split; [discriminate|lia].
Qed.

Lemma flags_iff : forall f, Z.ldiff f MNT_MASK = 0 <-> mount_flags f.
Proof.
  intros f. unfold mount_flags. split.
  - intros H i Hi Hf. apply mask_bits; [auto|].
    assert (K : Z.testbit (Z.ldiff f MNT_MASK) i = false) by (rewrite H; apply Z.bits_0).
    rewrite Z.ldiff_spec, Hf in K. destruct (Z.testbit MNT_MASK i); [reflexivity|discriminate].
  - intros H. apply Z.bits_inj'. intros i Hi. rewrite Z.bits_0, Z.ldiff_spec.
    destruct (Z.testbit f i) eqn:E; [|reflexivity]. apply H in E; [|auto]. apply mask_bits in E; [|auto]. rewrite E. reflexivity.
Qed.

Lemma owner_iff : forall m, Z.land m 448 <> 0 <-> exists i, 6 <= i <= 8 /\ Z.testbit m i = true.
Proof.
  intros m. split.
  - intros H.
    destruct (Z.testbit m 6) eqn:A; [exists 6; split; [lia|auto]|].
    destruct (Z.testbit m 7) eqn:B; [exists 7; split; [lia|auto]|].
    destruct (Z.testbit m 8) eqn:C; [exists 8; split; [lia|auto]|].
    exfalso. apply H. apply Z.bits_inj'. intros i Hi. rewrite Z.bits_0, Z.land_spec.
    destruct (Z.eq_dec i 6) as [->|]; [rewrite A; reflexivity|].
    destruct (Z.eq_dec i 7) as [->|]; [rewrite B; reflexivity|].
    destruct (Z.eq_dec i 8) as [->|]; [rewrite C; reflexivity|].
    change 448 with (Z.shiftl (Z.ones 3) 6). rewrite andb_comm.
    destruct (Z.lt_ge_cases i 6); [rewrite Z.shiftl_spec_low by auto; reflexivity|].
    rewrite Z.shiftl_spec by auto. rewrite Z.ones_spec_high by lia. reflexivity.
  - intros [i [Hi H]] K.
    assert (T : Z.testbit (Z.land m 448) i = true).
    { rewrite Z.land_spec, H. assert (i = 6 \/ i = 7 \/ i = 8) as [->|[->| ->]] by lia; reflexivity. }
    rewrite K, Z.bits_0 in T. discriminate.
Qed.
Lemma kind_iff : forall m, Z.land m 16384 <> 0 <-> Z.testbit m 14 = true.
Proof.
  intros m. change 16384 with (Z.shiftl (Z.ones 1) 14). split.
  - intros H. destruct (Z.testbit m 14) eqn:A; [reflexivity|]. exfalso. apply H.
    apply Z.bits_inj'. intros i Hi. rewrite Z.bits_0, Z.land_spec, andb_comm.
    destruct (Z.eq_dec i 14) as [->|]; [rewrite A; apply andb_false_r|].
    destruct (Z.lt_ge_cases i 14); [rewrite Z.shiftl_spec_low by auto; reflexivity|].
    rewrite Z.shiftl_spec by auto. rewrite Z.ones_spec_high by lia. reflexivity.
  - intros H K. assert (T : Z.testbit (Z.land m (Z.shiftl (Z.ones 1) 14)) 14 = true) by (rewrite Z.land_spec, H; reflexivity).
    rewrite K, Z.bits_0 in T. discriminate.
Qed.

Definition opts_of (p : mpar) (fd : Z) : mopts := mkMopts (p_maxread p) fd (p_mode p) (p_uid p) (p_gid p) (p_other p).

(* the checks that ask nothing of the system *)
Definition pre_mount (c : cred) (p : mpar) : Z :=
  if negb (Z.ldiff (p_flags p) MNT_MASK =? 0) then - EsOPNOTSUPP
  else if Z.land (p_mode p) 448 =? 0 then - EsOPNOTSUPP
  else if Z.land (p_mode p) 16384 =? 0 then - EsINVAL
  else if negb (p_uid p =? cr_uid c) || negb (p_gid p =? cr_gid c) then - EsACCES
  else if p_maxread p <? 2 * cf_page F then - EsINVAL
  else if p_maxread p >? 512 * cf_page F then - EsINVAL
  else match p_path p with None => - EsINVAL | Some _ => 0 end.
Lemma check_mount_eq : forall c p s, check_mount W F c p s =
  if pre_mount c p =? 0 then
    match p_path p with None => (Val (- EsINVAL), s)
    | Some path => dbind (check_mount_rule W F c path) (fun e => if e =? 0 then check_mount_path W path (cr_uid c) else dret e) s end
  else (Val (pre_mount c p), s).
Proof.
  intros. unfold check_mount, pre_mount, dret.
  destruct (negb (Z.ldiff (p_flags p) MNT_MASK =? 0)); [reflexivity|].
  destruct (Z.land (p_mode p) 448 =? 0); [reflexivity|].
  destruct (Z.land (p_mode p) 16384 =? 0); [reflexivity|].
  destruct (negb (p_uid p =? cr_uid c) || negb (p_gid p =? cr_gid c)); [reflexivity|].
  destruct (p_maxread p <? 2 * cf_page F); [reflexivity|].
  destruct (p_maxread p >? 512 * cf_page F); [reflexivity|].
  destruct (p_path p); reflexivity.
Qed.
Lemma pre_mount_iff : forall c p fd, pre_mount c p = 0 <-> fair_opts F c (p_flags p) (opts_of p fd) /\ p_path p <> None.
Proof.
  intros c p fd. unfold pre_mount, EsOPNOTSUPP, EsINVAL, EsACCES. split.
  - destruct (negb (Z.ldiff (p_flags p) MNT_MASK =? 0)) eqn:E1; [lia|].
    destruct (Z.land (p_mode p) 448 =? 0) eqn:E2; [lia|].
    destruct (Z.land (p_mode p) 16384 =? 0) eqn:E3; [lia|].
    destruct (negb (p_uid p =? cr_uid c) || negb (p_gid p =? cr_gid c)) eqn:E4; [lia|].
    destruct (p_maxread p <? 2 * cf_page F) eqn:E5; [lia|].
    destruct (p_maxread p >? 512 * cf_page F) eqn:E6; [lia|].
    destruct (p_path p); [|lia]. intros _. split; [|discriminate].
    split; cbn [opts_of o_uid o_gid o_mode o_maxread]; try lia.
    + apply flags_iff. lia.
    + apply owner_iff. lia.
    + apply kind_iff. lia.
  - intros [[H1 H2 H3 H4 H5 H6] HP]. cbn [opts_of o_uid o_gid o_mode o_maxread] in *.
    apply flags_iff in H1. apply owner_iff in H5. apply kind_iff in H6.
    rewrite H1. change (negb (0 =? 0)) with false. cbv iota.
    destruct (Z.land (p_mode p) 448 =? 0) eqn:E2; [lia|].
    destruct (Z.land (p_mode p) 16384 =? 0) eqn:E3; [lia|].
    destruct (negb (p_uid p =? cr_uid c) || negb (p_gid p =? cr_gid c)) eqn:E4; [lia|].
    destruct (p_maxread p <? 2 * cf_page F) eqn:E5; [lia|].
    destruct (p_maxread p >? 512 * cf_page F) eqn:E6; [lia|].
    destruct (p_path p); [reflexivity|congruence].
Qed.

Lemma check_mount_spec : forall c p s, exists e s', check_mount W F c p s = (Val e, s') /\ quiet s s' /\
  (e = 0 -> exists path, p_path p = Some path /\
     forall fd, checked_mount W (d_clock s) (d_clock s') F c path (p_flags p) (opts_of p fd)).
Proof.
  intros c p s. rewrite check_mount_eq. destruct (pre_mount c p =? 0) eqn:E.
  2:{ eexists _, _. split; [reflexivity|]. split; [apply quiet_refl|]. lia. }
  apply Z.eqb_eq in E.
  destruct (p_path p) as [path|] eqn:EP.
  2:{ eexists _, _. split; [reflexivity|]. split; [apply quiet_refl|]. unfold EsINVAL. lia. }
  destruct (mount_rule_spec c path s) as [e1 [s1 [A1 [A2 A3]]]]. rewrite (bind_val _ _ _ _ _ _ _ A1).
  destruct (e1 =? 0) eqn:E1.
  2:{ eexists _, _. split; [reflexivity|]. split; [auto|]. lia. }
  unfold check_mount_path. destruct (canon_spec path s1) as [e2 [s2 [B1 [B2 B3]]]]. rewrite (bind_val _ _ _ _ _ _ _ B1).
  pose proof (quiet_trans _ _ _ A2 B2) as Q2.
  destruct (e2 =? 0) eqn:E2.
  2:{ eexists _, _. split; [reflexivity|]. split; [auto|]. lia. }
  destruct (mntpoint_spec path c s2) as [e3 [s3 [C1 [C2 C3]]]]. exists e3, s3. split; [auto|].
  pose proof (quiet_trans _ _ _ Q2 C2) as Q3. split; [auto|]. intros Z3. exists path. split; [auto|]. intros fd.
  pose proof (quiet_clock _ _ A2). pose proof (quiet_clock _ _ B2). pose proof (quiet_clock _ _ C2).
  destruct (C3 Z3) as [C4 C5]. split.
  - apply (pre_mount_iff c p fd) in E. tauto.
  - eapply saw_more; [apply B3; lia|lia|lia].
  - eapply saw_more; [exact C4|lia|lia].
  - eapply saw_more; [exact C5|lia|lia].
  - destruct (A3 ltac:(lia)) as [rs [l [ru [r [st [D1 [D2 [D3 [D4 [D5 D6]]]]]]]]]].
    exists rs, l, ru, r, st. split; [auto|]. split; [auto|].
    split; [eapply saw_more; [exact D3|lia|lia]|]. split; [eapply saw_more; [exact D4|lia|lia]|].
    split; [intros x Hx; eapply saw_more; [apply D5; auto|lia|lia]|auto].
Qed.

(* ---- one command ---- *)
Inductive mshape (a : nat) (c : cred) (p : mpar) : out Z -> Z -> list event -> Prop :=
| ms_none : forall e, (e = 0 -> p_check p = true) -> mshape a c p (Val e) (-1) []
| ms_done : forall t path fd, p_path p = Some path -> p_check p = false -> 0 < fd -> (a <= t)%nat ->
    checked_mount W a t F c path (p_flags p) (opts_of p fd) -> w_mount (W t) = 0 ->
    mshape a c p (Val 0) fd [EvMount t path (p_flags p) (opts_of p fd) 0; EvOpen fd]
| ms_fail : forall t path fd r, p_path p = Some path -> p_check p = false -> 0 < fd -> (a <= t)%nat ->
    checked_mount W a t F c path (p_flags p) (opts_of p fd) -> 0 < r -> r = w_mount (W t) ->
    mshape a c p (Val (- r)) (-1) [EvClose fd; EvMount t path (p_flags p) (opts_of p fd) r; EvOpen fd]
| ms_panic : forall t path fd r, p_path p = Some path -> p_check p = false -> 0 < fd -> (a <= t)%nat ->
    checked_mount W a t F c path (p_flags p) (opts_of p fd) -> 0 < r -> r = w_mount (W t) -> (exists t', w_close (W t') fd <> 0) ->
    mshape a c p Panic (-1) [EvMount t path (p_flags p) (opts_of p fd) r; EvOpen fd].

Lemma checked_more : forall a b b' c path f o, checked_mount W a b F c path f o -> (b <= b')%nat -> checked_mount W a b' F c path f o.
Proof.
  intros a b b' c path f o [H1 H2 H3 H4 [rs [l [ru [r [st [D1 [D2 [D3 [D4 [D5 D6]]]]]]]]]]] Hb.
  split; auto; try (eapply saw_more; eauto).
  exists rs, l, ru, r, st. split; [auto|]. split; [auto|].
  split; [eapply saw_more; eauto|]. split; [eapply saw_more; eauto|].
  split; [intros x Hx; eapply saw_more; eauto|auto].
Qed.

Lemma exec_mount_spec : forall c p s, d_ffd s = -1 -> exists o s' tr, exec_mount W F c p s = (o, s') /\
  d_trace s' = tr ++ d_trace s /\ mshape (d_clock s) c p o (d_ffd s') tr.
Proof.
  intros c p s Hf. unfold exec_mount.
  destruct (check_mount_spec c p s) as [e [s1 [A1 [A2 A3]]]]. rewrite (bind_val _ _ _ _ _ _ _ A1).
  destruct A2 as [T1 [F1 C1]].
  destruct (e =? 0) eqn:E.
  2:{ eexists _, _, []. split; [reflexivity|]. split; [auto|]. rewrite F1, Hf. apply ms_none. lia. }
  destruct (p_check p) eqn:EC.
  { eexists _, _, []. split; [reflexivity|]. split; [auto|]. rewrite F1, Hf. apply ms_none. auto. }
  destruct (A3 ltac:(lia)) as [path [EP A4]]. rewrite EP. unfold do_mount.
  set (s2 := mkDst (d_clock s1) (d_trace s1) (-1)).
  assert (E2 : set_ffd (-1) s1 = (Val tt, s2)) by reflexivity. rewrite (bind_val _ _ _ _ _ _ _ E2).
  assert (O : exists s3, (exists e1, 0 < e1 /\ open_fuse W s2 = (Val (inl (- e1)), s3) /\ d_trace s3 = d_trace s1 /\ d_ffd s3 = -1) \/
    (exists fd, 0 < fd /\ open_fuse W s2 = (Val (inr fd), s3) /\ d_trace s3 = EvOpen fd :: d_trace s1 /\ d_ffd s3 = -1 /\ (d_clock s1 <= d_clock s3)%nat)).
  { unfold open_fuse. rewrite (bind_val _ _ _ _ _ _ _ (sys_eq _ _ s2)).
    destruct (w_stat (W (d_clock s2)) dev_fuse) as [e1|st] eqn:ES.
    - eexists. left. exists e1. split; [|split; [reflexivity|auto]].
      destruct (RE (d_clock s2)) as [R _]. eapply R; eauto.
    - destruct (is_chr (t_mode st)); cbn [negb].
      2:{ eexists. left. exists EsINVAL. split; [unfold EsINVAL; lia|]. split; [reflexivity|auto]. }
      rewrite (bind_val _ _ _ _ _ _ _ (sys_eq _ _ (tick s2))).
      destruct (w_open (W (d_clock (tick s2)))) as [e1|fd] eqn:EO.
      + eexists. left. exists e1. split; [|split; [reflexivity|auto]].
        destruct (RE (d_clock (tick s2))) as [_ [_ [_ [R _]]]]. eapply R; eauto.
      + eexists. right. exists fd. split; [destruct (RE (d_clock (tick s2))) as [_ [_ [_ [_ [R _]]]]]; eapply R; eauto|].
        split; [reflexivity|]. split; [reflexivity|]. split; [reflexivity|]. unfold s2. cbn [tick d_clock]. lia. }
  destruct O as [s3 [[e1 [P1 [O1 [O2 O3]]]]|[fd [P1 [O1 [O2 [O3 O4]]]]]]]; rewrite (bind_val _ _ _ _ _ _ _ O1).
  { eexists _, _, []. split; [reflexivity|]. split; [cbn [app]; congruence|]. rewrite O3. apply ms_none. lia. }
  assert (G : get_clock s3 = (Val (d_clock s3), s3)) by reflexivity. rewrite (bind_val _ _ _ _ _ _ _ G). clear G.
  rewrite (bind_val _ _ _ _ _ _ _ (sys_eq _ _ s3)).
  fold (opts_of p fd). set (r := w_mount (W (d_clock s3))). set (t := d_clock s3).
  set (s4 := mkDst (d_clock (tick s3)) (EvMount t path (p_flags p) (opts_of p fd) r :: d_trace s3) (d_ffd s3)).
  assert (G : dlog (EvMount t path (p_flags p) (opts_of p fd) r) (tick s3) = (Val tt, s4)) by reflexivity.
  rewrite (bind_val _ _ _ _ _ _ _ G). clear G.
  assert (CK : checked_mount W (d_clock s) t F c path (p_flags p) (opts_of p fd)) by (eapply checked_more; [apply A4|unfold t; lia]).
  assert (TT : (d_clock s <= t)%nat) by (unfold t; lia).
  assert (R0 : 0 <= r) by (unfold r; destruct (RE (d_clock s3)) as [_ [_ [_ [_ [_ [? _]]]]]]; lia).
  destruct (r =? 0) eqn:ER.
  - apply Z.eqb_eq in ER. unfold dbind, set_ffd, dret. eexists _, _, [EvMount t path (p_flags p) (opts_of p fd) 0; EvOpen fd].
    split; [reflexivity|]. cbn [d_trace d_ffd s4]. split; [rewrite O2, T1; rewrite ER; reflexivity|].
    apply ms_done; auto.
  - unfold close_fd. replace (fd >? 0) with true by lia. unfold dbind at 1 2. rewrite sys_eq.
    destruct (w_close (W (d_clock s4)) fd =? 0) eqn:EW.
    + eexists _, _, [EvClose fd; EvMount t path (p_flags p) (opts_of p fd) r; EvOpen fd]. split; [reflexivity|].
      cbn [d_trace d_ffd s4 tick]. split; [rewrite O2, T1; reflexivity|]. rewrite O3. apply ms_fail; auto. lia.
    + eexists _, _, [EvMount t path (p_flags p) (opts_of p fd) r; EvOpen fd]. split; [reflexivity|].
      cbn [d_trace d_ffd s4 tick]. split; [rewrite O2, T1; reflexivity|]. rewrite O3. apply ms_panic; auto; [lia|].
      exists (d_clock s4). lia.
Qed.

(* ---- unmount ---- *)
Lemma um_flags : forall f, 0 <= f -> Z.ldiff f UMNT_MASK = 0 -> 0 <= f <= 3.
Proof.
  intros f Hf H. split; [auto|]. change UMNT_MASK with (Z.ones 2) in H.
  rewrite Z.ldiff_ones_r in H by lia. apply Z.shiftl_eq_0_iff in H; [|lia].
  rewrite Z.shiftr_div_pow2 in H by lia. change (2 ^ 2) with 4 in H.
  pose proof (Z.div_mod f 4). pose proof (Z.mod_pos_bound f 4). lia.
Qed.

Lemma text_rule_iff : forall c path, check_umount_rule F c path = 0 <-> text_ruled F c path.
Proof.
  intros c path. unfold check_umount_rule, text_ruled.
  destruct (cf_rules F) as [rs|]; [|split; auto].
  destruct rs as [|r0 rs0]; [split; auto|]. set (rs := r0 :: rs0).
  assert (FS : forall l, match List.find (fun r => equal_mntpath (ru_path r) path) l with
    | Some ru => exists a b, l = a ++ ru :: b /\ same_text (ru_path ru) path /\ forall x, In x a -> ~ same_text (ru_path x) path
    | None => forall x, In x l -> ~ same_text (ru_path x) path end).
  { induction l as [|y l IH]; cbn [List.find]; [intros x []|].
    destruct (equal_mntpath (ru_path y) path) eqn:E.
    - exists [], l. split; [reflexivity|]. split; [apply equal_mntpath_iff; auto|intros x []].
    - assert (N : ~ same_text (ru_path y) path) by (intros K; apply equal_mntpath_iff in K; congruence).
      destruct (List.find _ l) as [ru|].
      + destruct IH as [a [b [A1 [A2 A3]]]]. exists (y :: a), b. split; [rewrite A1; reflexivity|]. split; [auto|].
        intros x [<-|Hx]; auto.
      + intros x [<-|Hx]; auto. }
  specialize (FS rs). destruct (List.find _ rs) as [ru|] eqn:EF.
  - destruct FS as [a [b [A1 [A2 A3]]]].
    destruct (negb (ru_uid ru =? UID_NONE) && negb (ru_uid ru =? cr_uid c)) eqn:U.
    + split; [unfold EsUMOUNT; lia|]. intros [K|[K|[rs' [l [ru' [r [K1 [K2 [K3 [K4 K5]]]]]]]]]]; [discriminate|discriminate|].
      assert (HR : rs' = rs) by congruence. rewrite HR in K2. exfalso. rewrite A1 in K2. clear - A2 A3 K2 K3 K4 K5 U.
      assert (ru = ru').
      { revert l K2 K4. induction a as [|x a IH]; intros l K2 K4; destruct l as [|y l]; cbn [app] in K2.
        - congruence.
        - assert (ru = y) by congruence. subst. exfalso. apply (K4 y); [left; auto|auto].
        - assert (x = ru') by congruence. subst. exfalso. apply (A3 ru'); [left; auto|auto].
        - apply (IH ltac:(intros z Hz; apply A3; right; auto) l); [congruence|intros z Hz; apply K4; right; auto]. }
      subst ru'. apply for_user_iff in K5. congruence.
    + split; [|reflexivity]. intros _. right; right. exists rs, a, ru, b. split; [auto|]. split; [auto|]. split; [auto|].
      split; [auto|]. apply for_user_iff. auto.
  - split; [unfold EsUMOUNT; lia|]. intros [K|[K|[rs' [l [ru' [r [K1 [K2 [K3 _]]]]]]]]]; [discriminate|discriminate|].
    assert (HR : rs' = rs) by congruence. rewrite HR in K2. exfalso. apply (FS ru'); [|auto]. rewrite K2. apply in_or_app. right. left. auto.
Qed.

(* what was found out before an unmount *)
Definition um_seen (a b : nat) (c : cred) (path : bytes) (flags : Z) : Prop :=
  0 <= flags <= 3 /\
  ((saw W a b (dead_root path) /\ ~ forced flags) \/
   ((saw W a b (live_root path) \/ (saw W a b (dead_root path) /\ forced flags)) /\ text_ruled F c path)).

Inductive ushape (a : nat) (c : cred) (p : mpar) : out Z -> Z -> list event -> Prop :=
| us_none : forall e, e <> 0 -> ushape a c p (Val e) (-1) []
| us_done : forall t path r, p_path p = Some path -> (a <= t)%nat -> um_seen a t c path (p_flags p) -> r = w_umount (W t) ->
    ushape a c p (Val (- r)) (-1) [EvUmount t path (p_flags p) r].

Lemma force_iff : forall f, 0 <= f <= 3 -> ((Z.land f 1 >? 0) = true <-> forced f).
Proof.
  intros f H. unfold forced. assert (f = 0 \/ f = 1 \/ f = 2 \/ f = 3) as [->|[->|[->| ->]]] by lia; cbn; split; intros; try discriminate; try lia; auto.
Qed.

Lemma exec_umount_spec : forall c p s, d_ffd s = -1 -> 0 <= p_flags p -> exists o s' tr, exec_umount W F c p s = (o, s') /\
  d_trace s' = tr ++ d_trace s /\ ushape (d_clock s) c p o (d_ffd s') tr.
Proof.
  intros c p s Hf Hp. unfold exec_umount.
  destruct (p_path p) as [path|] eqn:EP.
  2:{ eexists _, _, []. split; [reflexivity|]. split; [auto|]. rewrite Hf. apply us_none. unfold EsPERM. lia. }
  assert (CU : exists e s1, check_umount W F c p path s = (Val e, s1) /\ quiet s s1 /\
    (e = 0 \/ e = - xNOTCONN -> um_seen (d_clock s) (d_clock s1) c path (p_flags p))).
  { unfold check_umount.
    destruct (Z.ldiff (p_flags p) UMNT_MASK =? 0) eqn:E1; cbn [negb].
    2:{ eexists _, _. split; [reflexivity|]. split; [apply quiet_refl|]. unfold EsINVAL, xNOTCONN. lia. }
    pose proof (um_flags _ Hp ltac:(apply Z.eqb_eq; exact E1)) as FL.
    destruct (negb (Z.lor (p_flags p) UMNT_MASK =? UMNT_MASK)) eqn:E2.
    { eexists _, _. split; [reflexivity|]. split; [apply quiet_refl|]. unfold EsINVAL, xNOTCONN. lia. }
    pose proof (force_iff _ FL) as FI. set (force := Z.land (p_flags p) 1 >? 0) in *. cbv zeta.
    assert (P : exists e s1, check_umount_path W path (cr_uid c) force s = (Val e, s1) /\ quiet s s1 /\
      (e = 0 -> saw W (d_clock s) (d_clock s1) (live_root path) \/ (saw W (d_clock s) (d_clock s1) (dead_root path) /\ forced (p_flags p))) /\
      (e = - xNOTCONN -> saw W (d_clock s) (d_clock s1) (dead_root path) /\ ~ forced (p_flags p))).
    { unfold check_umount_path, check_mntpoint. unfold dbind at 1 2. rewrite sys_eq. cbv iota.
      assert (KE : forall e, 0 < e -> e <> 107 -> (if (- e) =? 0 then dret 0 else if negb (- e =? - xNOTCONN) then dret (- e)
         else if negb force then dret (- e) else dret 0) (tick s) = (Val (- e), tick s)).
      { intros e H1 H2. destruct (- e =? 0) eqn:K1; [lia|]. destruct (- e =? - xNOTCONN) eqn:K2; [unfold xNOTCONN in K2; lia|]. reflexivity. }
      destruct (w_stat (W (d_clock s)) path) as [e|st] eqn:ES.
      - cbn [negb]. rewrite andb_true_r. destruct (e =? xACCES) eqn:EA.
        + unfold dret. change (0 =? 0) with true. cbv iota. eexists _, _. split; [reflexivity|]. split; [apply tick_quiet|].
          split; [|unfold xNOTCONN; lia]. intros _. left. apply saw_now. left. rewrite ES. f_equal. unfold xACCES in EA. lia.
        + assert (0 < e) by (destruct (RE (d_clock s)) as [R _]; eapply R; eauto).
          unfold dret at 1. cbv iota. destruct (Z.eq_dec e 107) as [->|].
          * unfold xNOTCONN. change (- (107) =? 0) with false. change (negb (- (107) =? - (107))) with false. cbv iota.
            assert (SD : saw W (d_clock s) (d_clock (tick s)) (dead_root path)) by (apply saw_now; exact ES).
            destruct force; cbn [negb].
            -- eexists _, _. split; [reflexivity|]. split; [apply tick_quiet|]. split; [|lia]. intros _. right. split; [auto|tauto].
            -- eexists _, _. split; [reflexivity|]. split; [apply tick_quiet|]. split; [lia|]. intros _. split; [auto|].
               intros K. apply FI in K. discriminate.
          * rewrite (KE e) by auto. eexists _, _. split; [reflexivity|]. split; [apply tick_quiet|]. unfold xNOTCONN. lia.
      - destruct (is_dir (t_mode st)) eqn:ED; cbn [negb].
        2:{ unfold dret at 1. cbv iota. rewrite (KE EsNOTDIR) by (unfold EsNOTDIR; lia).
            eexists _, _. split; [reflexivity|]. split; [apply tick_quiet|]. unfold xNOTCONN, EsNOTDIR. lia. }
        destruct (t_ino st =? INO_ROOT) eqn:EI; cbn [negb].
        2:{ unfold dret at 1. cbv iota. rewrite (KE EsINVAL) by (unfold EsINVAL; lia).
            eexists _, _. split; [reflexivity|]. split; [apply tick_quiet|]. unfold xNOTCONN, EsINVAL. lia. }
        unfold dret. change (0 =? 0) with true. cbv iota. eexists _, _. split; [reflexivity|]. split; [apply tick_quiet|].
        split; [|unfold xNOTCONN; lia]. intros _. left. apply saw_now. right. exists st. split; [auto|].
        apply is_dir_iff in ED. unfold INO_ROOT in EI. split; [auto|lia]. }
    destruct P as [e [s1 [P1 [P2 [P3 P4]]]]]. rewrite (bind_val _ _ _ _ _ _ _ P1).
    destruct (e =? 0) eqn:E0.
    - eexists _, _. split; [reflexivity|]. split; [auto|]. intros K. split; [auto|]. right. split; [apply P3; lia|].
      apply text_rule_iff. destruct K as [K|K]; [auto|]. exfalso. unfold xNOTCONN, check_umount_rule in K.
      destruct (cf_rules F) as [[|r0 rs]|]; [lia| |lia].
      destruct (List.find _ _) as [ru|]; [destruct (negb _ && negb _)|]; unfold EsUMOUNT in K; lia.
    - eexists _, _. split; [reflexivity|]. split; [auto|]. intros K. split; [auto|]. left. apply P4. lia. }
  destruct CU as [e [s1 [A1 [A2 A3]]]]. rewrite (bind_val _ _ _ _ _ _ _ A1). destruct A2 as [T1 [F1 C1]].
  destruct (negb (e =? 0) && negb (e =? - xNOTCONN)) eqn:EE.
  - eexists _, _, []. split; [reflexivity|]. split; [auto|]. rewrite F1, Hf. apply us_none. lia.
  - unfold dbind, get_clock, dlog, dret, sys. cbn [d_clock d_trace d_ffd].
    eexists _, _, [_]. split; [reflexivity|]. cbn [d_trace d_ffd]. split; [rewrite T1; reflexivity|]. rewrite F1, Hf.
    apply us_done; auto. apply A3. lia.
Qed.

(* ---- results are small ---- *)
Definition ret_in {A} (m : D A) (Q : A -> Prop) : Prop := forall s a s', m s = (Val a, s') -> Q a.
Lemma ri_ret : forall A (a : A) (Q : A -> Prop), Q a -> ret_in (dret a) Q.
Proof. intros A a Q H s x s' K. unfold dret in K. congruence. Qed.
Lemma ri_bind : forall A B (m : D A) (k : A -> D B) P Q, ret_in m P -> (forall a, P a -> ret_in (k a) Q) -> ret_in (dbind m k) Q.
Proof.
  intros A B m k P Q H1 H2 s b s' K. unfold dbind in K. destruct (m s) as [[a|] s1] eqn:E; [|discriminate].
  eapply H2; [eapply H1; exact E|exact K].
Qed.
Lemma ri_sys : forall A (f : world -> A) (Q : A -> Prop), (forall t, Q (f (W t))) -> ret_in (sys W f) Q.
Proof. intros A f Q H s a s' K. rewrite sys_eq in K. assert (a = f (W (d_clock s))) by congruence. subst. apply H. Qed.
Lemma ri_any : forall A (m : D A), ret_in m (fun _ => True).
Proof. intros A m s a s' _. exact I. Qed.
Definition small (e : Z) : Prop := -20000 < e <= 0.
Definition small_l {A} (x : Z + A) : Prop := match x with inl e => 0 < e < 4096 | _ => True end.

Ltac ri_step := first [ apply ri_ret; unfold small, EsPERM, EsACCES, EsBUSY, EsNOTDIR, EsINVAL, EsNOTEMPTY, EsOPNOTSUPP, EsMOUNT, EsUMOUNT in *; try lia
  | match goal with |- ret_in (if ?b then _ else _) _ => destruct b end ].

Lemma small_stat : forall p, ret_in (sys W (fun w => w_stat w p)) small_l.
Proof. intros p. apply ri_sys. intros t. destruct (w_stat (W t) p) eqn:E; cbn; [|auto]. destruct (RE t) as [R _]. eapply R; eauto. Qed.
Lemma small_statfs : forall p, ret_in (sys W (fun w => w_statfs w p)) small_l.
Proof. intros p. apply ri_sys. intros t. destruct (w_statfs (W t) p) eqn:E; cbn; [|auto]. destruct (RE t) as [_ [R _]]. eapply R; eauto. Qed.
Lemma small_canon : forall p, ret_in (sys W (fun w => w_canon w p)) small_l.
Proof. intros p. apply ri_sys. intros t. destruct (w_canon (W t) p) eqn:E; cbn; [|auto]. destruct (RE t) as [_ [_ [R _]]]. eapply R; eauto. Qed.
Lemma small_open : ret_in (sys W w_open) small_l.
Proof. apply ri_sys. intros t. destruct (w_open (W t)) eqn:E; cbn; [|auto]. destruct (RE t) as [_ [_ [_ [R _]]]]. eapply R; eauto. Qed.

Lemma small_fstype : forall t, small (check_fstype t).
Proof.
  intros t. unfold check_fstype. destruct (List.find _ _) as [[[? al] fu]|]; unfold small, EsMOUNT, EsINVAL; [destruct (fu || negb al)|]; lia.
Qed.
Lemma small_mntpoint : forall path u mnt, ret_in (check_mntpoint W path u mnt) small.
Proof.
  intros. unfold check_mntpoint. eapply ri_bind; [apply small_stat|]. intros [e|st] H; cbn [small_l] in H; [repeat ri_step|].
  ri_step; [ri_step|]. ri_step; [|repeat ri_step]. do 3 (ri_step; [ri_step|]).
  eapply ri_bind; [apply small_statfs|]. intros [e|ty] H1; cbn [small_l] in H1; [ri_step|]. apply ri_ret. apply small_fstype.
Qed.
Lemma small_check_mount : forall c p, ret_in (check_mount W F c p) small.
Proof.
  intros. unfold check_mount. do 6 (ri_step; [ri_step|]). destruct (p_path p) as [path|]; [|ri_step].
  eapply ri_bind with (P := small).
  - unfold check_mount_rule. destruct (cf_rules F) as [rs|]; [|ri_step].
    eapply ri_bind; [apply small_stat|]. intros [e|st] H; cbn [small_l] in H; [ri_step|].
    eapply ri_bind; [apply ri_any|]. intros [ru|] _; repeat ri_step.
  - intros e He. ri_step; [|apply ri_ret; auto]. unfold check_mount_path. eapply ri_bind with (P := small).
    + unfold check_canon. ri_step; [ri_step|]. eapply ri_bind; [apply small_canon|].
      intros [e1|q] H1; cbn [small_l] in H1; repeat ri_step.
    + intros e1 H1. ri_step; [apply small_mntpoint|apply ri_ret; auto].
Qed.
Lemma small_exec : forall c m, ret_in (exec_request W F c m) small.
Proof.
  intros. unfold exec_request. ri_step; [ri_step|]. ri_step; [|ri_step; [|ri_step]].
  - unfold exec_mount. eapply ri_bind; [apply small_check_mount|]. intros e He. ri_step; [|apply ri_ret; auto].
    ri_step; [ri_step|]. destruct (p_path (to_params m)); [|ri_step]. unfold do_mount.
    eapply ri_bind; [apply ri_any|]. intros _ _.
    eapply ri_bind with (P := fun x => match x with inl e => small e | _ => True end).
    + unfold open_fuse. eapply ri_bind; [apply small_stat|]. intros [e1|st] H; cbn [small_l] in H; [ri_step|].
      ri_step; [ri_step|]. eapply ri_bind; [apply small_open|]. intros [e1|fd] H1; cbn [small_l] in H1; [ri_step|].
      eapply ri_bind; [apply ri_any|]. intros _ _. apply ri_ret. auto.
    + intros [e1|fd] H; [apply ri_ret; auto|]. eapply ri_bind; [apply ri_any|]. intros t _.
      eapply ri_bind with (P := fun r => 0 <= r < 4096).
      { apply ri_sys. intros t1. destruct (RE t1) as [_ [_ [_ [_ [_ [R _]]]]]]. auto. }
      intros r Hr. eapply ri_bind; [apply ri_any|]. intros _ _. ri_step.
      * eapply ri_bind; [apply ri_any|]. intros _ _. ri_step.
      * eapply ri_bind; [apply ri_any|]. intros _ _. ri_step.
  - unfold exec_umount. destruct (p_path (to_params m)) as [path|]; [|ri_step].
    eapply ri_bind with (P := small).
    + unfold check_umount. do 2 (ri_step; [ri_step|]). cbv zeta. eapply ri_bind with (P := small).
      * unfold check_umount_path. eapply ri_bind; [apply small_mntpoint|]. intros e He. repeat ri_step; auto.
      * intros e He. ri_step; [|apply ri_ret; auto]. apply ri_ret. unfold check_umount_rule.
        destruct (cf_rules F) as [[|r0 rs]|]; [unfold small; lia| |unfold small; lia].
        destruct (List.find _ _) as [ru|]; [destruct (negb _ && negb _)|]; unfold small, EsUMOUNT; lia.
    + intros e He. ri_step; [apply ri_ret; auto|]. eapply ri_bind; [apply ri_any|]. intros t _.
      eapply ri_bind with (P := fun r => 0 <= r < 4096).
      { apply ri_sys. intros t1. destruct (RE t1) as [_ [_ [_ [_ [_ [_ R]]]]]]. auto. }
      intros r Hr. eapply ri_bind; [apply ri_any|]. intros _ _. ri_step.
Qed.

(* ---- one request ---- *)
Inductive cshape (a : nat) (c : cred) (m : mmsg) : out Z -> Z -> list event -> Prop :=
| cs_hand : g_cmd m = 1 -> cshape a c m (Val 0) (-1) []
| cs_mount : forall o f tr, g_cmd m = 2 -> mshape a c (to_params m) o f tr -> cshape a c m o f tr
| cs_umount : forall o f tr, g_cmd m = 3 -> ushape a c (to_params m) o f tr -> cshape a c m o f tr.

Lemma check_iff : forall m, msg_check F m = 0 <->
  g_magic m = 1869375859 /\ g_major m = cf_major F /\ g_minor m <= cf_minor F /\ (g_cmd m = 1 \/ g_cmd m = 2 \/ g_cmd m = 3).
Proof.
  intros m. unfold msg_check, META_MAGIC, CMD_HANDSHAKE, CMD_MOUNT, CMD_UMOUNT, EsINVAL, EsPROTO.
  destruct (g_magic m =? 1869375859) eqn:E1; cbn [negb]; [|lia].
  destruct (g_major m =? cf_major F) eqn:E2; cbn [negb]; [|lia].
  destruct (g_minor m >? cf_minor F) eqn:E3; [lia|].
  destruct ((g_cmd m =? 1) || (g_cmd m =? 2) || (g_cmd m =? 3)) eqn:E4; lia.
Qed.

Lemma exec_request_spec : forall c m s, d_ffd s = -1 -> 0 <= g_flags m -> msg_check F m = 0 ->
  exists o s' tr, exec_request W F c m s = (o, s') /\ d_trace s' = tr ++ d_trace s /\ cshape (d_clock s) c m o (d_ffd s') tr.
Proof.
  intros c m s Hf Hg Hc. apply check_iff in Hc. destruct Hc as [_ [_ [_ Hc]]].
  unfold exec_request, CMD_HANDSHAKE, CMD_MOUNT, CMD_UMOUNT. destruct Hc as [E|[E|E]]; rewrite E.
  - change (1 =? 1) with true. cbv iota. eexists _, _, []. split; [reflexivity|]. split; [auto|]. rewrite Hf. apply cs_hand. auto.
  - change (2 =? 1) with false. change (2 =? 2) with true. cbv iota.
    destruct (exec_mount_spec c (to_params m) s Hf) as [o [s' [tr [H1 [H2 H3]]]]].
    exists o, s', tr. split; [auto|]. split; [auto|]. apply cs_mount; auto.
  - change (3 =? 1) with false. change (3 =? 2) with false. change (3 =? 3) with true. cbv iota.
    destruct (exec_umount_spec c (to_params m) s Hf Hg) as [o [s' [tr [H1 [H2 H3]]]]].
    exists o, s', tr. split; [auto|]. split; [auto|]. apply cs_umount; auto.
Qed.

Lemma close_eq : forall fd s, close_fd W fd s =
  if fd >? 0 then if w_close (W (d_clock s)) fd =? 0
    then (Val tt, mkDst (S (d_clock s)) (EvClose fd :: d_trace s) (d_ffd s)) else (Panic, tick s)
  else (Val tt, s).
Proof.
  intros. unfold close_fd. destruct (fd >? 0); [|reflexivity]. unfold dbind. rewrite sys_eq.
  destruct (w_close (W (d_clock s)) fd =? 0); reflexivity.
Qed.

(* closes of received descriptors, and the one sent *)
Definition front (fds : list Z) : list event := match fds with [fd] => if fd >? 0 then [EvClose fd] else [] | _ => [] end.
Definition few (fds : list Z) : Prop := (length fds <= 1)%nat.

Inductive sshape (a : nat) (c : cred) : input -> out unit -> list event -> Prop :=
| ss_err : forall i, (forall b fds, i = inr (b, fds) -> (length b < 56)%nat \/ (2 <= length fds)%nat) -> sshape a c i (Val tt) []
| ss_recvpanic : forall b fd t, 0 < fd -> w_close (W t) fd <> 0 -> sshape a c (inr (b, [fd])) Panic []
| ss_bad : forall b fds, (56 <= length b)%nat -> few fds -> msg_check F (msg_dec (buf F b)) <> 0 ->
    sshape a c (inr (b, fds)) (Val tt) (front fds)
| ss_run : forall b fds a' e f t r mid, (56 <= length b)%nat -> few fds -> msg_check F (msg_dec (buf F b)) = 0 -> (a <= a')%nat ->
    cshape a' c (msg_dec (buf F b)) (Val e) f mid -> small e ->
    sshape a c (inr (b, fds)) (Val tt)
      ((if f >? 0 then [EvClose f] else []) ++ EvReply t (msg_enc (reply_of F (msg_dec (buf F b)) e)) f r :: mid ++ front fds)
| ss_runpanic : forall b fds a' f mid, (56 <= length b)%nat -> few fds -> msg_check F (msg_dec (buf F b)) = 0 -> (a <= a')%nat ->
    cshape a' c (msg_dec (buf F b)) Panic f mid ->
    sshape a c (inr (b, fds)) Panic (mid ++ front fds)
| ss_closepanic : forall b fds a' e f t t' r mid, (56 <= length b)%nat -> few fds -> msg_check F (msg_dec (buf F b)) = 0 -> (a <= a')%nat ->
    cshape a' c (msg_dec (buf F b)) (Val e) f mid -> small e -> 0 < f -> w_close (W t') f <> 0 ->
    sshape a c (inr (b, fds)) Panic (EvReply t (msg_enc (reply_of F (msg_dec (buf F b)) e)) f r :: mid ++ front fds).

Lemma buf_bytes : forall b, all_bytes b -> all_bytes (buf F b).
Proof.
  intros b H. unfold buf, all_bytes. apply Forall_app. split; [auto|]. apply Forall_forall. intros x Hx.
  assert (In x (msg_enc (msg_init F 0))) as I.
  { rewrite <- (firstn_skipn (length b)). apply in_or_app. right. auto. }
  revert x Hx I. cut (Forall is_byte (msg_enc (msg_init F 0))); [intros K x _ I; rewrite Forall_forall in K; auto|].
  unfold msg_enc, msg_init.
  cbn [g_magic g_major g_minor g_cmd g_status g_flags g_uid g_gid g_mode g_maxread g_other g_check g_res g_path].
  repeat (apply Forall_app; split); try apply le_enc_bytes; apply Forall_forall; intros y Hy; apply repeat_spec in Hy; subst; unfold is_byte; lia.
Qed.
Lemma flags_pos : forall b, all_bytes b -> 0 <= g_flags (msg_dec (buf F b)).
Proof.
  intros b H. unfold msg_dec. cbn [g_flags]. apply buf_bytes in H.
  assert (K : all_bytes (sub 16 8 (buf F b))).
  { unfold all_bytes, sub in *. rewrite Forall_forall in *. intros x Hx. apply H.
    apply (fun K => In_nth _ _ 0 K) in Hx. destruct Hx as [n [N1 N2]]. rewrite firstn_length in N1.
    rewrite nth_firstn in N2 by lia. rewrite nth_skipn in N2. subst x. apply nth_In. rewrite skipn_length in N1. lia. }
  apply le_dec_bound in K. lia.
Qed.

Lemma serve_spec : forall c i s, input_bytes i -> exists o s' tr, serve W F c i s = (o, s') /\
  d_trace s' = tr ++ d_trace s /\ sshape (d_clock s) c i o tr.
Proof.
  intros c i s HB. unfold serve. set (s0 := mkDst (d_clock s) (d_trace s) (-1)).
  assert (E0 : set_ffd (-1) s = (Val tt, s0)) by reflexivity. rewrite (bind_val _ _ _ _ _ _ _ E0).
  destruct i as [e|[b fds]].
  { eexists _, _, []. split; [reflexivity|]. split; [reflexivity|]. apply ss_err. discriminate. }
  cbn [input_bytes] in HB.
  assert (RC : (exists e, recv_msg W F (inr (b, fds)) s0 = (Val (inl e), s0) /\ ((length b < 56)%nat \/ (2 <= length fds)%nat)) \/
    (exists fd t s1, fds = [fd] /\ 0 < fd /\ w_close (W t) fd <> 0 /\ recv_msg W F (inr (b, fds)) s0 = (Panic, s1) /\ d_trace s1 = d_trace s) \/
    (exists s1, recv_msg W F (inr (b, fds)) s0 = (Val (inr (msg_dec (buf F b))), s1) /\ d_trace s1 = front fds ++ d_trace s /\ d_ffd s1 = -1 /\
       (d_clock s <= d_clock s1)%nat /\ (56 <= length b)%nat /\ few fds)).
  { unfold recv_msg, MSGHDR_SIZE. fold (buf F b). destruct (length b <? 56)%nat eqn:EL.
    { left. eexists. split; [reflexivity|]. left. apply Nat.ltb_lt. auto. }
    apply Nat.ltb_ge in EL. unfold few. destruct fds as [|fd fds].
    - right; right. exists s0. split; [reflexivity|]. split; [reflexivity|]. split; [reflexivity|]. split; [cbn; lia|]. split; [auto|cbn; lia].
    - destruct fds as [|fd2 fds].
      2:{ left. eexists. split; [reflexivity|]. right. cbn [length]. lia. }
      unfold front, dbind. rewrite close_eq. destruct (fd >? 0) eqn:EP.
      + destruct (w_close (W (d_clock s0)) fd =? 0) eqn:EC.
        * right; right. eexists. split; [reflexivity|]. split; [reflexivity|]. split; [reflexivity|]. split; [cbn; lia|]. split; [auto|cbn; lia].
        * right; left. exists fd, (d_clock s0), (tick s0). split; [auto|]. split; [lia|]. split; [lia|]. split; [reflexivity|reflexivity].
      + right; right. exists s0. split; [reflexivity|]. split; [reflexivity|]. split; [reflexivity|]. split; [cbn; lia|]. split; [auto|cbn; lia]. }
  destruct RC as [[e [R1 R2]]|[[fd [t [s1 [R1 [R2 [R3 [R4 R5]]]]]]]|[s1 [R1 [R2 [R3 [R4 [R5 R6]]]]]]]].
  - rewrite (bind_val _ _ _ _ _ _ _ R1). eexists _, _, []. split; [reflexivity|]. split; [reflexivity|]. apply ss_err.
    intros b' f' K. inversion K; subst. auto.
  - subst fds. unfold dbind at 1. rewrite R4. eexists _, _, []. split; [reflexivity|]. split; [auto|]. eapply ss_recvpanic; eauto.
  - rewrite (bind_val _ _ _ _ _ _ _ R1). set (m := msg_dec (buf F b)). destruct (msg_check F m =? 0) eqn:EM; cbn [negb].
    2:{ eexists _, _, (front fds). split; [reflexivity|]. split; [auto|]. apply ss_bad; auto. fold m. lia. }
    apply Z.eqb_eq in EM.
    destruct (exec_request_spec c m s1 R3 (flags_pos b HB) EM) as [o [s2 [mid [X1 [X2 X3]]]]].
    destruct o as [e|].
    2:{ unfold dbind at 1. rewrite X1. eexists _, _, (mid ++ front fds). split; [reflexivity|].
        split; [rewrite X2, R2, app_assoc; reflexivity|]. eapply ss_runpanic; eauto. }
    rewrite (bind_val _ _ _ _ _ _ _ X1). unfold get_ffd, get_clock.
    unfold dbind. rewrite sys_eq. unfold dlog. rewrite close_eq. cbn [d_clock d_trace d_ffd tick].
    set (t := d_clock s2). set (r := w_send (W t)).
    destruct (d_ffd s2 >? 0) eqn:EF.
    +      destruct (w_close (W (S t)) (d_ffd s2) =? 0) eqn:EC.
      * eexists _, _, _. split; [reflexivity|].
        split; [|pose proof (ss_run (d_clock s) c b fds (d_clock s1) e (d_ffd s2) t r mid R5 R6 EM R4 X3 (small_exec _ _ _ _ _ X1)) as K; rewrite EF in K; exact K].
        cbn [d_trace app]. rewrite X2, R2, app_assoc. reflexivity.
      * eexists _, _, _. split; [reflexivity|].
        split; [|eapply (ss_closepanic (d_clock s) c b fds (d_clock s1) e (d_ffd s2) t (S t) r mid); eauto; first [eapply small_exec; eauto|lia]].
        cbn [d_trace app]. rewrite X2, R2, app_assoc. reflexivity.
    + eexists _, _, _. split; [reflexivity|].
      split; [|pose proof (ss_run (d_clock s) c b fds (d_clock s1) e (d_ffd s2) t r mid R5 R6 EM R4 X3 (small_exec _ _ _ _ _ X1)) as K; rewrite EF in K; exact K].
      cbn [d_trace app]. unfold set_ffd. cbn [d_trace tick]. rewrite X2, R2, app_assoc. reflexivity.
Qed.

(* a mount request, from the message and back *)
Lemma wf_of : forall b, (56 <= length b)%nat -> (msg_check F (msg_dec (buf F b)) = 0 <->
  wellformed F b /\ (num 4 b 8 = 1 \/ num 4 b 8 = 2 \/ num 4 b 8 = 3)).
Proof.
  intros b H. rewrite check_iff. unfold msg_dec. cbn [g_magic g_major g_minor g_cmd].
  rewrite !buf_num by (auto; lia). split.
  - intros [A [B [C E]]]. split; [split; auto|auto].
  - intros [[_ A B C] E]. auto.
Qed.
Lemma cmd_of : forall b, (56 <= length b)%nat -> g_cmd (msg_dec (buf F b)) = num 4 b 8.
Proof. intros. unfold msg_dec. cbn [g_cmd]. apply buf_num; auto. lia. Qed.
Lemma num1 : forall b i, num 1 b i = at_ b i.
Proof. intros. cbn [num]. lia. Qed.

Lemma asks_of : forall b path fd k, (56 <= length b)%nat -> all_bytes b ->
  (msg_check F (msg_dec (buf F b)) = 0 /\ g_cmd (msg_dec (buf F b)) = 2 /\ p_path (to_params (msg_dec (buf F b))) = Some path /\
   p_check (to_params (msg_dec (buf F b))) = k <->
   asks_mount F b path (p_flags (to_params (msg_dec (buf F b)))) (opts_of (to_params (msg_dec (buf F b))) fd) k).
Proof.
  intros b path fd k H HB. rewrite wf_of, cmd_of by auto. unfold to_params. cbn [p_path p_check p_flags]. rewrite path_says by auto.
  assert (O : (g_other (msg_dec (buf F b)) >? 0) = true <-> 0 < at_ b 40).
  { unfold msg_dec. cbn [g_other]. rewrite buf_num, num1 by (auto; lia). lia. }
  assert (C : forall k, (g_check (msg_dec (buf F b)) >? 0) = k <-> (k = true <-> 0 < at_ b 41)).
  { intros k0. unfold msg_dec. cbn [g_check]. rewrite buf_num, num1 by (auto; lia). destruct k0; lia. }
  split.
  - intros [[A _] [B [P K]]]. split; auto; cbn [opts_of o_uid o_gid o_mode o_maxread o_other p_uid p_gid p_mode p_maxread p_other];
      try (unfold msg_dec; cbn [g_flags g_uid g_gid g_mode g_maxread]; rewrite buf_num by (auto; lia); reflexivity).
    apply C. auto.
  - intros [A B P _ _ _ _ _ _ K]. split; [auto|]. split; [auto|]. split; [auto|]. apply C. auto.
Qed.

Lemma asks_u : forall b path, (56 <= length b)%nat ->
  (msg_check F (msg_dec (buf F b)) = 0 /\ g_cmd (msg_dec (buf F b)) = 3 /\ p_path (to_params (msg_dec (buf F b))) = Some path <->
   asks_umount F b path (p_flags (to_params (msg_dec (buf F b))))).
Proof.
  intros b path H. rewrite wf_of, cmd_of by auto. unfold to_params. cbn [p_path p_flags]. rewrite path_says by auto. split.
  - intros [[A _] [B P]]. split; auto. unfold msg_dec. cbn [g_flags]. rewrite buf_num by (auto; lia). reflexivity.
  - intros [A B P _]. auto.
Qed.

(* ---- when nothing changes meanwhile ---- *)
Variable w : world.
Hypothesis ST : steady W w.

Lemma names_st : forall t p st, names (W t) p st <-> names w p st.
Proof. intros. unfold names. destruct (ST t) as [-> _]. tauto. Qed.
Lemma saw_st : forall a b (P : world -> Prop), (forall t, P (W t) <-> P w) -> saw W a b P -> P w.
Proof. intros a b P H [t [_ K]]. apply (H t). auto. Qed.

Lemma checked_may : forall a b c path f o, checked_mount W a b F c path f o -> may_mount w F c path f o.
Proof.
  intros a b c path f o [H1 H2 H3 H4 [rs [l [ru [r [st [D1 [D2 [D3 [D4 [D5 D6]]]]]]]]]]]. split; auto.
  - eapply (saw_st _ _ (fun w => w_canon w path = inr path)); [|exact H2]. intros t. destruct (ST t) as [_ [_ ->]]. tauto.
  - eapply saw_st; [|exact H3]. intros t. unfold own_dir. destruct (ST t) as [-> _]. tauto.
  - eapply saw_st; [|exact H4]. intros t. unfold backed. destruct (ST t) as [_ [-> _]]. tauto.
  - exists rs, l, ru, r, st. split; [auto|]. split; [auto|].
    split; [eapply (saw_st _ _ (fun w => w_stat w path = inr st)); [|exact D3]; intros t; destruct (ST t) as [-> _]; tauto|].
    split; [eapply (saw_st _ _ (fun w => names w (ru_path ru) st)); [|exact D4]; intros t; apply names_st|].
    split; [|auto]. intros x Hx.
    eapply (saw_st _ _ (fun w => ~ names w (ru_path x) st)); [|apply D5; exact Hx]. intros t. rewrite names_st. tauto.
Qed.

Lemma find_yes : forall l ru r st s, names w (ru_path ru) st -> (forall x, In x l -> ~ names w (ru_path x) st) ->
  exists s', find_rule_by_stat W (l ++ ru :: r) st s = (Val (Some ru), s') /\ quiet s s'.
Proof.
  induction l as [|y l IH]; intros ru r st s H1 H2; cbn [app find_rule_by_stat].
  - destruct (by_stat_spec (ru_path ru) st s) as [b [E1 E2]]. rewrite (bind_val _ _ _ _ _ _ _ E1).
    assert (b = true) as -> by (apply E2, names_st; auto). exists (tick s). split; [reflexivity|apply tick_quiet].
  - destruct (by_stat_spec (ru_path y) st s) as [b [E1 E2]]. rewrite (bind_val _ _ _ _ _ _ _ E1).
    destruct b; [exfalso; apply (H2 y); [left; auto|]; apply (names_st (d_clock s)); tauto|].
    destruct (IH ru r st (tick s) H1 ltac:(intros x Hx; apply H2; right; auto)) as [s' [K1 K2]].
    exists s'. split; [auto|]. eapply quiet_trans; [apply tick_quiet|auto].
Qed.

Lemma check_mount_yes : forall c p path s, p_path p = Some path -> path <> [] -> may_mount w F c path (p_flags p) (opts_of p 0) ->
  exists s', check_mount W F c p s = (Val 0, s') /\ quiet s s'.
Proof.
  intros c p path s HP HN [H1 H2 H3 H4 [rs [l [ru [r [st [D1 [D2 [D3 [D4 [D5 D6]]]]]]]]]]].
  rewrite check_mount_eq. assert (pre_mount c p = 0) as ->.
  { apply (pre_mount_iff c p 0). split; [auto|]. rewrite HP. discriminate. }
  change (0 =? 0) with true. cbv iota. rewrite HP.
  assert (R : exists s1, check_mount_rule W F c path s = (Val 0, s1) /\ quiet s s1).
  { unfold check_mount_rule. rewrite D1. rewrite (bind_val _ _ _ _ _ _ _ (sys_eq _ _ s)).
    destruct (ST (d_clock s)) as [-> _]. rewrite D3.
    destruct (find_yes l ru r st (tick s) D4 D5) as [s1 [K1 K2]]. rewrite D2, (bind_val _ _ _ _ _ _ _ K1).
    apply for_user_iff in D6. rewrite D6. exists s1. split; [reflexivity|]. eapply quiet_trans; [apply tick_quiet|auto]. }
  destruct R as [s1 [R1 R2]]. rewrite (bind_val _ _ _ _ _ _ _ R1). change (0 =? 0) with true. cbv iota.
  unfold check_mount_path.
  assert (C : check_canon W path s1 = (Val 0, tick s1)).
  { unfold check_canon. destruct path as [|x path]; [congruence|]. replace (Z.of_nat (length (x :: path)) =? 0) with false by (cbn [length]; lia).
    rewrite (bind_val _ _ _ _ _ _ _ (sys_eq _ _ s1)). destruct (ST (d_clock s1)) as [_ [_ ->]]. rewrite H2.
    replace (same_bytes (x :: path) (x :: path)) with true by (symmetry; apply same_bytes_iff; auto). reflexivity. }
  rewrite (bind_val _ _ _ _ _ _ _ C). change (0 =? 0) with true. cbv iota.
  exists (tick (tick (tick s1))). split.
  2:{ eapply quiet_trans; [exact R2|]. eapply quiet_trans; [apply tick_quiet|]. eapply quiet_trans; apply tick_quiet. }
  unfold check_mntpoint. rewrite (bind_val _ _ _ _ _ _ _ (sys_eq _ _ (tick s1))).
  destruct (ST (d_clock (tick s1))) as [-> _]. destruct H3 as [st' [E1 [E2 [E3 [E4 E5]]]]]. rewrite E1.
  apply is_dir_iff in E2. rewrite E2. cbn [negb]. replace (t_nlink st' >? 2) with false by lia.
  unfold INO_ROOT. replace (t_ino st' =? 1) with false by lia. replace (cr_uid c =? t_uid st') with true by lia. cbn [negb].
  rewrite (bind_val _ _ _ _ _ _ _ (sys_eq _ _ (tick (tick s1)))). destruct (ST (d_clock (tick (tick s1)))) as [_ [-> _]].
  destruct H4 as [ty [G1 G2]]. rewrite G1. apply fstype_iff in G2. rewrite G2. reflexivity.
Qed.

Hypothesis CL : forall t x, w_close (W t) x = 0.
Lemma close_ok : forall x s, exists s', close_fd W x s = (Val tt, s') /\
  d_trace s' = (if x >? 0 then [EvClose x] else []) ++ d_trace s /\ d_ffd s' = d_ffd s.
Proof.
  intros x s. rewrite close_eq. rewrite CL. change (0 =? 0) with true. destruct (x >? 0); eexists; split; try reflexivity; auto.
Qed.
Lemma recv_ok : forall b fds s, (56 <= length b)%nat -> few fds ->
  exists s', recv_msg W F (inr (b, fds)) s = (Val (inr (msg_dec (buf F b))), s') /\ d_trace s' = front fds ++ d_trace s /\ d_ffd s' = d_ffd s.
Proof.
  intros b fds s HL HF. unfold recv_msg, MSGHDR_SIZE. fold (buf F b). destruct (length b <? 56)%nat eqn:E; [apply Nat.ltb_lt in E; lia|].
  unfold few in HF. destruct fds as [|x [|y fds]]; cbn [length] in HF; try lia.
  - exists s. auto.
  - destruct (close_ok x s) as [s' [H1 [H2 H3]]]. rewrite (bind_val _ _ _ _ _ _ _ H1). exists s'. split; [reflexivity|]. auto.
Qed.
Lemma serve_ok : forall c b fds s e tr f, (56 <= length b)%nat -> few fds -> msg_check F (msg_dec (buf F b)) = 0 ->
  (forall s0, d_ffd s0 = -1 -> exists s1, exec_request W F c (msg_dec (buf F b)) s0 = (Val e, s1) /\
     d_trace s1 = tr (d_clock s1) ++ d_trace s0 /\ d_ffd s1 = f) ->
  exists s' t t' r, serve W F c (inr (b, fds)) s = (Val tt, s') /\
    d_trace s' = ((if f >? 0 then [EvClose f] else []) ++ EvReply t (msg_enc (reply_of F (msg_dec (buf F b)) e)) f r :: tr t' ++ front fds) ++ d_trace s.
Proof.
  intros c b fds s e tr f HL HF HM HX. unfold serve. set (s0 := mkDst (d_clock s) (d_trace s) (-1)).
  assert (E0 : set_ffd (-1) s = (Val tt, s0)) by reflexivity. rewrite (bind_val _ _ _ _ _ _ _ E0).
  destruct (recv_ok b fds s0 HL HF) as [s1 [R1 [R2 R3]]]. rewrite (bind_val _ _ _ _ _ _ _ R1).
  rewrite HM. change (negb (0 =? 0)) with false. cbv iota.
  destruct (HX s1 ltac:(rewrite R3; reflexivity)) as [s2 [X1 [X2 X3]]]. rewrite (bind_val _ _ _ _ _ _ _ X1).
  assert (G1 : get_ffd s2 = (Val (d_ffd s2), s2)) by reflexivity. rewrite (bind_val _ _ _ _ _ _ _ G1).
  assert (G2 : get_clock s2 = (Val (d_clock s2), s2)) by reflexivity. rewrite (bind_val _ _ _ _ _ _ _ G2).
  rewrite (bind_val _ _ _ _ _ _ _ (sys_eq _ _ s2)).
  set (ev := EvReply (d_clock s2) _ (d_ffd s2) _). set (s3 := mkDst (d_clock (tick s2)) (ev :: d_trace s2) (d_ffd s2)).
  assert (G3 : dlog ev (tick s2) = (Val tt, s3)) by reflexivity. rewrite (bind_val _ _ _ _ _ _ _ G3).
  destruct (close_ok (d_ffd s2) s3) as [s4 [C1 [C2 C3]]]. rewrite (bind_val _ _ _ _ _ _ _ C1).
  eexists _, (d_clock s2), (d_clock s2), _. split; [reflexivity|]. cbn [set_ffd d_trace]. rewrite C2. unfold s3, ev. cbn [d_trace].
  rewrite X2, R2, X3. destruct (f >? 0); cbn [app]; rewrite <- app_assoc; reflexivity.
Qed.

Lemma exec_mount_yes : forall c p path fd st s, d_ffd s = -1 -> p_path p = Some path -> path <> [] -> p_check p = false ->
  may_mount w F c path (p_flags p) (opts_of p 0) -> w_stat w dev_fuse = inr st -> is_chr (t_mode st) = true ->
  (forall t, w_open (W t) = inr fd) -> (forall t, w_mount (W t) = 0) ->
  exists s1 t, exec_mount W F c p s = (Val 0, s1) /\ d_clock s1 = S t /\
    d_trace s1 = [EvMount t path (p_flags p) (opts_of p fd) 0; EvOpen fd] ++ d_trace s /\ d_ffd s1 = fd.
Proof.
  intros c p path fd st s Hf HP HN HC HM HD HK HO HW. unfold exec_mount.
  destruct (check_mount_yes c p path s HP HN HM) as [s1 [A1 [A2 [A3 A4]]]]. rewrite (bind_val _ _ _ _ _ _ _ A1).
  change (0 =? 0) with true. cbv iota. rewrite HC, HP. unfold do_mount.
  set (s2 := mkDst (d_clock s1) (d_trace s1) (-1)).
  assert (E2 : set_ffd (-1) s1 = (Val tt, s2)) by reflexivity. rewrite (bind_val _ _ _ _ _ _ _ E2).
  set (s3 := mkDst (d_clock (tick (tick s2))) (EvOpen fd :: d_trace s2) (-1)).
  assert (O : open_fuse W s2 = (Val (inr fd), s3)).
  { unfold open_fuse. rewrite (bind_val _ _ _ _ _ _ _ (sys_eq _ _ s2)). destruct (ST (d_clock s2)) as [-> _]. rewrite HD, HK. cbn [negb].
    rewrite (bind_val _ _ _ _ _ _ _ (sys_eq _ _ (tick s2))). rewrite HO. reflexivity. }
  rewrite (bind_val _ _ _ _ _ _ _ O).
  assert (G : get_clock s3 = (Val (d_clock s3), s3)) by reflexivity. rewrite (bind_val _ _ _ _ _ _ _ G). clear G.
  rewrite (bind_val _ _ _ _ _ _ _ (sys_eq _ _ s3)). rewrite HW. fold (opts_of p fd).
  unfold dbind, dlog, set_ffd, dret. change (0 =? 0) with true. cbv iota.
  eexists _, (d_clock s3). split; [reflexivity|]. split; [reflexivity|]. cbn [d_trace d_ffd app]. split; [|reflexivity].
  unfold s3, s2. cbn [tick d_trace]. rewrite A2. reflexivity.
Qed.
End Runs.
