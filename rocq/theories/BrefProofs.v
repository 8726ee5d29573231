(* Boot-ref files: what a save leaves, however it ends. *)
From Verif Require Import Base AddrModel MntModel WalkModel RulesModel RulesSpec RulesProofs.
From Verif Require Import CaddrModel CaddrSpec CaddrProofs BrefModel BrefSpec.

Lemma same_name_iff : forall a b, same_name a b = true <-> a = b.
Proof.
  induction a as [|x a IH]; intros [|y b]; cbn [same_name]; try (intuition congruence).
  rewrite andb_true_iff, Z.eqb_eq, IH. split; [intros [-> ->]; auto|intros E; injection E; auto].
Qed.
Lemma upd_eq : forall d n f, upd d n f n = f.
Proof. intros. unfold upd. rewrite (proj2 (same_name_iff n n) eq_refl). auto. Qed.
Lemma upd_ne : forall d n f m, m <> n -> upd d n f m = d m.
Proof. intros d n f m H. unfold upd. destruct (same_name n m) eqn:E; [|auto]. apply same_name_iff in E. congruence. Qed.
Lemma tmp_ne : forall n, tmp_name n <> n.
Proof. intros n E. apply (f_equal (@length Z)) in E. unfold tmp_name in E. rewrite app_length in E. cbn [length] in E. lia. Qed.

Lemma next_fin : forall s e s', next s = (e, s') -> h_dir s' = h_dir s /\ h_fin s' = h_fin s.
Proof. intros s e s'. unfold next. destruct (h_evs s); intros H; injection H as <- <-; auto. Qed.

(* a step from P: to Q if the command goes on, to R if it ends *)
Definition hoare (P : hdir -> Prop) (p : step) (Q R : hdir -> Prop) : Prop :=
  forall s, h_fin s = Went -> P (h_dir s) ->
    (h_fin (p s) = Went -> Q (h_dir (p s))) /\ (h_fin (p s) <> Went -> R (h_dir (p s))).
Lemma hoare_seq : forall P p Q q Q' R, hoare P p Q R -> hoare Q q Q' R -> hoare P (p ;> q) Q' R.
Proof.
  intros P p Q q Q' R H1 H2 s HF HP. unfold andthen. cbv zeta. destruct (H1 s HF HP) as [HQ HR]. destruct (h_fin (p s)) eqn:E.
  - apply H2; auto.
  - rewrite E. split; [discriminate|]. intros _. apply HR. discriminate.
  - rewrite E. split; [discriminate|]. intros _. apply HR. discriminate.
Qed.
Lemma hoare_pre : forall (P P' : hdir -> Prop) p Q R, (forall d, P d -> P' d) -> hoare P' p Q R -> hoare P p Q R.
Proof. intros P P' p Q R H HH s HF HP. apply HH; auto. Qed.
Lemma hoare_must : forall (P Q R : hdir -> Prop) act, (forall d, P d -> R d) ->
  (forall d d', P d -> act d = Some d' -> Q d') -> hoare P (must act) Q R.
Proof.
  intros P Q R act HR HQ s HF HP. unfold must. destruct (next s) as [e s'] eqn:E. destruct (next_fin _ _ _ E) as [ED EF].
  rewrite <- ED in HP. destruct e as [|k|k].
  - destruct (act (h_dir s')) as [d|] eqn:EA; cbn [set_dir ended h_fin h_dir]; [rewrite EF, HF; split; [intros _; eauto|congruence]|split; [discriminate|auto]].
  - cbn [ended h_fin h_dir]. split; [discriminate|auto].
  - cbn [ended h_fin h_dir]. split; [discriminate|auto].
Qed.
Lemma hoare_may : forall (P Q R : hdir -> Prop) act, (forall d, P d -> R d) -> (forall d, P d -> Q d) ->
  (forall d d', P d -> act d = Some d' -> Q d') -> hoare P (may act) Q R.
Proof.
  intros P Q R act HR HN HQ s HF HP. unfold may. destruct (next s) as [e s'] eqn:E. destruct (next_fin _ _ _ E) as [ED EF].
  rewrite <- ED in HP. destruct e as [|k|k].
  - destruct (act (h_dir s')) as [d|] eqn:EA; cbn [set_dir h_fin h_dir]; rewrite EF, HF; (split; [intros _; eauto|congruence]).
  - rewrite EF, HF. split; [auto|congruence].
  - cbn [ended h_fin h_dir]. split; [discriminate|auto].
Qed.
Lemma hoare_write : forall (P Q R : hdir -> Prop) n b, (forall d, P d -> R d) ->
  (forall d d' k, P d -> h_append n (firstn k b) d = Some d' -> R d') ->
  (forall d d', P d -> h_append n b d = Some d' -> Q d') -> hoare P (h_writen n b) Q R.
Proof.
  intros P Q R n b HR HP' HQ s HF HP. unfold h_writen. cbv zeta. destruct (next s) as [e s'] eqn:E. destruct (next_fin _ _ _ E) as [ED EF].
  rewrite <- ED in HP. destruct e as [|k|k].
  - destruct (h_append n b (h_dir s')) as [d|] eqn:EA; cbn [set_dir ended h_fin h_dir]; [rewrite EF, HF; split; [intros _; eauto|congruence]|split; [discriminate|auto]].
  - destruct (h_append n (firstn (Nat.min k (length b - 1)) b) (h_dir s')) as [d|] eqn:EA; cbn [set_dir ended h_fin h_dir]; (split; [discriminate|intros _; eauto]).
  - destruct (h_append n (firstn (Nat.min k (length b - 1)) b) (h_dir s')) as [d|] eqn:EA; cbn [set_dir ended h_fin h_dir]; (split; [discriminate|intros _; eauto]).
Qed.

Section SAVE.
  Variables (root : bool) (n txt : bytes) (d0 : hdir).
  Let tmp := tmp_name n.
  Definition kept (d : hdir) : Prop :=
    match d0 n, d n with
    | None, None => True
    | Some f, Some f' => f_data f' = f_data f /\ (f_mode f' = f_mode f \/ f_mode f' = 384 \/ f_mode f' = 256)
    | _, _ => False
    end.
  Definition done (d : hdir) : Prop := d n = Some (mkHfile 256 (txt ++ [10])) /\ d tmp = None.
  Definition left_so (d : hdir) : Prop := same_but n tmp d0 d /\ (kept d \/ done d).
  Definition mid (b : bytes) (d : hdir) : Prop := same_but n tmp d0 d /\ kept d /\ d tmp = Some (mkHfile 256 b).

  Lemma kept_same : forall d, d n = d0 n -> kept d.
  Proof. intros d E. unfold kept. rewrite E. destruct (d0 n); auto. Qed.
  Lemma upd_tmp : forall d f, same_but n tmp d0 d -> kept d -> same_but n tmp d0 (upd d tmp f) /\ kept (upd d tmp f) /\ upd d tmp f tmp = f.
  Proof.
    intros d f HS HK. split; [|split].
    - intros x H1 H2. rewrite upd_ne by auto. auto.
    - unfold kept in *. rewrite upd_ne; [auto|]. intros E. apply (tmp_ne n). auto.
    - apply upd_eq.
  Qed.
  Lemma upd_n : forall d m f', same_but n tmp d0 d -> kept d -> d n = Some f' -> m = 384 \/ m = 256 ->
    same_but n tmp d0 (upd d n (Some (mkHfile m (f_data f')))) /\ kept (upd d n (Some (mkHfile m (f_data f')))) /\
    upd d n (Some (mkHfile m (f_data f'))) tmp = d tmp.
  Proof.
    intros d m f' HS HK EN HM. split; [|split].
    - intros x H1 H2. rewrite upd_ne by auto. auto.
    - unfold kept in *. rewrite upd_eq. rewrite EN in HK. destruct (d0 n) as [f|]; [|destruct HK]. cbn [f_data f_mode]. split; [apply HK|tauto].
    - apply upd_ne. apply tmp_ne.
  Qed.
  Lemma mid_left : forall b d, mid b d -> left_so d.
  Proof. intros b d (H1 & H2 & _). split; auto. Qed.
  Lemma hoare_append : forall a b, hoare (mid a) (h_writen tmp b) (mid (a ++ b)) left_so.
  Proof.
    intros a b. apply hoare_write.
    - apply mid_left.
    - intros d d' k (H1 & H2 & H3). unfold h_append. rewrite H3. intros E. injection E as <-. destruct (upd_tmp d (Some (mkHfile 256 (a ++ firstn k b))) H1 H2) as (A & B & _).
      split; auto.
    - intros d d' (H1 & H2 & H3). unfold h_append. rewrite H3. intros E. injection E as <-. apply upd_tmp; auto.
  Qed.

  Lemma save_hoare : hoare (fun d => d = d0) (save_bref_file root n txt) (fun d => same_but n tmp d0 d /\ done d) left_so.
  Proof.
    unfold save_bref_file. fold tmp.
    assert (H0 : forall d, d = d0 -> same_but n tmp d0 d /\ kept d) by (intros d ->; split; [intros x _ _; auto|apply kept_same; auto]).
    apply hoare_seq with (Q := fun d => same_but n tmp d0 d /\ kept d /\ exists m, d tmp = Some (mkHfile m [])).
    { apply hoare_must; [intros d Hd; destruct (H0 d Hd); split; auto|]. intros d d' Hd. destruct (H0 d Hd) as [H1 H2]. unfold h_create.
      destruct (d tmp) as [f|]; [destruct (permits root (f_mode f) (OWNER_R + OWNER_W)); [|discriminate]|]; intros E; injection E as <-;
      (match goal with |- context [upd d tmp ?g] => destruct (upd_tmp d g H1 H2) as (A & B & C) end); split; auto; split; auto; eauto. }
    apply hoare_seq with (Q := mid []).
    { apply hoare_must; [intros d (H1 & H2 & _); split; auto|]. intros d d' (H1 & H2 & m & H3). unfold h_chmod. rewrite H3. intros E. injection E as <-.
      apply upd_tmp; auto. }
    apply hoare_seq with (Q := mid txt); [apply (hoare_append [] txt)|].
    apply hoare_seq with (Q := mid (txt ++ [10])); [apply hoare_append|].
    apply hoare_seq with (Q := mid (txt ++ [10])).
    { apply hoare_may; [apply mid_left|auto|]. intros d d' H E. injection E as <-. auto. }
    apply hoare_seq with (Q := mid (txt ++ [10])).
    { apply hoare_may; [apply mid_left|auto|]. intros d d' (H1 & H2 & H3). unfold h_chmod. destruct (d n) as [f|] eqn:EN; [|discriminate].
      intros E. injection E as <-. destruct (upd_n d 384 f H1 H2 EN) as (A & B & C); [auto|]. split; [auto|]. split; [auto|]. change (OWNER_R + OWNER_W) with 384. rewrite C. auto. }
    apply hoare_seq with (Q := fun d => same_but n tmp d0 d /\ done d).
    { intros s HF HM. destruct (next s) as [e s'] eqn:E. destruct (next_fin _ _ _ E) as [ED EF]. rewrite <- ED in HM.
      assert (HD : forall s1, h_fin s1 = Went -> mid (txt ++ [10]) (h_dir s1) ->
        let r := (may (h_chmod n OWNER_R) ;> (fun s2 => ended s2 Died)) s1 in
        (h_fin r = Went -> same_but n tmp d0 (h_dir r) /\ done (h_dir r)) /\ (h_fin r <> Went -> left_so (h_dir r))).
      { intros s1 HF1 HM1.
        assert (HH : hoare (mid (txt ++ [10])) (may (h_chmod n OWNER_R) ;> (fun s2 => ended s2 Died)) (fun d => same_but n tmp d0 d /\ done d) left_so).
        { apply hoare_seq with (Q := mid (txt ++ [10])).
          - apply hoare_may; [apply mid_left|auto|]. intros d d' (H1 & H2 & H3). unfold h_chmod. destruct (d n) as [f|] eqn:EN; [|discriminate].
            intros E'. injection E' as <-. destruct (upd_n d 256 f H1 H2 EN) as (A & B & C); [auto|]. split; [auto|]. split; [auto|]. change OWNER_R with 256. rewrite C. auto.
          - intros s2 HF2 HM2. cbn [ended h_fin h_dir]. split; [discriminate|]. intros _. eapply mid_left; eauto. }
        apply HH; auto. }
      destruct e as [|k|k].
      - unfold h_rename. destruct HM as (H1 & H2 & H3). rewrite H3. cbn [set_dir h_fin h_dir]. rewrite EF, HF. split; [|congruence]. intros _. split.
        + intros x X1 X2. rewrite !upd_ne by auto. auto.
        + split; [apply upd_eq|]. rewrite upd_ne by apply tmp_ne. apply upd_eq.
      - apply HD; [congruence|auto].
      - cbn [ended h_fin h_dir]. split; [discriminate|]. intros _. eapply mid_left; eauto. }
    apply hoare_must; [intros d [H1 H2]; split; auto|]. intros d d' [H1 [H2 H3]]. unfold h_chmod. rewrite H2. cbn [f_data]. intros E. injection E as <-. split.
    - intros x X1 X2. rewrite upd_ne by auto. auto.
    - split; [apply upd_eq|]. rewrite upd_ne by apply tmp_ne. auto.
  Qed.
End SAVE.

(* how a save ends *)
Lemma save_ends : forall root n txt s, h_fin s = Went -> let s' := save_bref_file root n txt s in
  (h_fin s' = Went -> same_but n (tmp_name n) (h_dir s) (h_dir s') /\ done n txt (h_dir s')) /\
  (h_fin s' <> Went -> left_so n txt (h_dir s) (h_dir s')).
Proof. intros root n txt s HF. apply (save_hoare root n txt (h_dir s)); auto. Qed.

(* ---- the name of a save is not in the way of another ---- *)
Lemma allowed_iff : forall c, one_of ALLOWED c = true <-> name_char c.
Proof. intros c. unfold one_of, ALLOWED, name_char. cbn [existsb]. lia. Qed.
Lemma fsname_legal : forall s, fsname_ok s = true <-> legal_name s.
Proof.
  intros s. unfold fsname_ok, NAME_MAX, FSNAME_MAX, legal_name, zlen.
  assert (HF : Z.of_nat (length s) <= 127 -> (sv_find_from (none_of ALLOWED) s 0 <? Z.of_nat (length s)) = false <-> Forall name_char s).
  { intros HL. fold (zlen s) in *. rewrite find_from_0 by (unfold NPOS; lia). rewrite Z.ltb_ge.
    assert (HA : forall l, Forall (fun c => none_of ALLOWED c = false) l <-> Forall name_char l).
    { intros l. split; intros H; eapply Forall_impl; try eassumption; intros c; rewrite <- allowed_iff; unfold none_of; destruct (one_of ALLOWED c); auto; discriminate. }
    pose proof (upto_from (none_of ALLOWED) s) as EU. pose proof (upto_none (none_of ALLOWED) s) as HU. pose proof (zlen_split (none_of ALLOWED) s) as HZ.
    destruct (from (none_of ALLOWED) s) as [|c r] eqn:EF.
    - split; [|unfold NPOS; lia]. intros _. rewrite EU, app_nil_r. apply HA; auto.
    - split; [unfold zlen in HZ |- *; cbn [length] in HZ; lia|]. intros H. destruct (from_head (none_of ALLOWED) s) as [H'|[c' [r' [H' HC]]]]; [congruence|].
      rewrite EF in H'. injection H' as <- <-. rewrite EU in H. apply HA in H. apply Forall_app in H. destruct H as [_ H]. inversion H. congruence. }
  destruct (Z.of_nat (length s) =? 0) eqn:E0; [split; [discriminate|intros (G1 & _ & G3); exfalso; lia]|]. destruct (Z.of_nat (length s) >? 255) eqn:E1; [split; [discriminate|intros (G1 & _ & G3); exfalso; lia]|].
  destruct (existsb (Z.eqb 47) s) eqn:E2.
  { split; [discriminate|]. intros (_ & H & _). apply existsb_exists in E2. destruct E2 as [x [HX EX]]. rewrite Forall_forall in H. specialize (H x HX). unfold name_char in H. lia. }
  destruct (hd 0 s =? 46) eqn:E3; [split; [discriminate|intros (G1 & _ & G3); exfalso; lia]|]. destruct (Z.of_nat (length s) >? 127) eqn:E4; [split; [discriminate|intros (G1 & _ & G3); exfalso; lia]|].
  unfold check_ascii_fs_name, zlen. rewrite !andb_true_iff, !negb_true_iff. rewrite (HF ltac:(lia)). split.
  - intros [_ H]. split; [lia|]. split; [auto|lia].
  - intros (_ & H & _). rewrite Forall_forall in H. split; [|apply Forall_forall; auto].
    assert (HN : forall p, (forall x, name_char x -> p x = false) -> existsb p s = false).
    { intros p Hp. destruct (existsb p s) eqn:EE; [|auto]. apply existsb_exists in EE. destruct EE as [x [HX EX]]. rewrite Hp in EX by auto. discriminate. }
    repeat split; [apply forallb_forall; intros x HX; specialize (H x HX); unfold chr_isprint, name_char in *; lia
      |apply forallb_forall; intros x HX; specialize (H x HX); unfold chr_isascii, name_char in *; lia| |].
    + apply HN. intros x HX. unfold one_of, SPACES. cbn [existsb]. unfold name_char in HX. lia.
    + apply HN. intros x HX. unfold chr_iscntrl, name_char in *. lia.
Qed.
Lemma tmp_not_legal : forall n, ~ legal_name (tmp_name n).
Proof. intros n (_ & H & _). unfold tmp_name in H. apply Forall_app in H. destruct H as [_ H]. inversion H as [|? ? HX _]. unfold name_char in HX. lia. Qed.

(* ---- reading ---- *)
Lemma reads_iff : forall mode, Z.land mode 256 =? 256 = true <-> owner_reads mode.
Proof.
  intros mode. unfold owner_reads. change 256 with (2 ^ 8). rewrite Z.eqb_eq. split.
  - intros H. assert (HB := f_equal (fun z => Z.testbit z 8) H). cbv beta in HB. rewrite Z.land_spec, Z.pow2_bits_true in HB by lia. rewrite andb_true_r in HB. auto.
  - intros H. apply Z.bits_inj'. intros k Hk. rewrite Z.land_spec, Z.pow2_bits_eqb by lia. destruct (Z.eqb_spec 8 k) as [<- |]; [rewrite H; auto|apply andb_false_r].
Qed.
Lemma cstr_id : forall t, Forall (fun x => x <> 0) t -> cstr t = t.
Proof. intros t H. induction H as [|x t HX H IH]; [auto|]. cbn [cstr]. replace (x =? 0) with false by lia. congruence. Qed.
Lemma name_no_nul : forall c t, name_of c t -> Forall (fun x => x <> 0) t.
Proof.
  intros c t (ty & sz & hx & -> & (HT & _) & (HS & _) & HH & _).
  assert (HN : forall base s v, base <= 36 -> numeral base s v -> Forall (fun x => x <> 0) s).
  { intros base s v HB HR. apply numeral_run in HR. destruct HR as [_ HR]. assert (HG : forall a, run base a s v -> Forall (fun x => x <> 0) s); [|eauto]. clear HR. intros a HR.
    induction HR; [constructor|]. constructor; [|auto]. destruct H as [H1 H2]. lia. }
  repeat (apply Forall_app; split); try (repeat constructor; lia); [eapply (HN 10); [lia|eauto]|eapply (HN 16); [lia|eauto]|].
  induction HH as [|? ? ? ? ? ? H1 H2 HH IH]; [constructor|]. unfold digit in *. constructor; [lia|]. constructor; [lia|]. auto.
Qed.
Lemma name_len : forall c t, sound_caddr c -> name_of c t -> (length t <= 140)%nat.
Proof.
  intros c t (HL & _ & HS & HTP) (ty & sz & hx & -> & HT & HSZ & HH & _).
  pose proof (numeral_bound 10 _ _ ltac:(lia) HT ltac:(lia)). pose proof (numeral_bound 16 _ _ ltac:(lia) HSZ ltac:(lia)). pose proof (hex_len _ _ HH).
  rewrite !app_length. cbn [length intro_text]. lia.
Qed.
(* names of boot records have one length *)
Lemma name_len_eq : forall c c' t t', sound_caddr c -> sound_caddr c' -> ca_type c = ca_type c' -> ca_size c = ca_size c' ->
  name_of c t -> name_of c' t' -> length t = length t'.
Proof.
  intros c c' t t' (HL & _) (HL' & _) ET ES (ty & sz & hx & -> & HT & HSZ & HH & _) (ty' & sz' & hx' & -> & HT' & HSZ' & HH' & _).
  rewrite <- ET in HT'. rewrite <- ES in HSZ'. rewrite (numeral_one_text 10 ltac:(lia) _ _ _ HT HT'), (numeral_one_text 16 ltac:(lia) _ _ _ HSZ HSZ').
  pose proof (hex_len _ _ HH). pose proof (hex_len _ _ HH'). rewrite !app_length. lia.
Qed.

Lemma load_says : forall root n d1 d2 c1 c2, says d1 n c1 -> says d2 n c2 -> sound_caddr c1 -> sound_caddr c2 -> whole_size c2 ->
  ca_type c1 = ca_type c2 -> ca_size c1 = ca_size c2 -> bootref_load root (ca_type c2) n d1 d2 = Some c2.
Proof.
  intros root n d1 d2 c1 c2 (m1 & t1 & E1 & HR1 & HN1) (m2 & t2 & E2 & HR2 & HN2) HS1 HS2 HW HT HZ.
  unfold bootref_load, load_bref_file. rewrite E1, E2. cbn [f_data f_mode]. cbv zeta. pose proof (name_len _ _ HS1 HN1) as HL.
  pose proof (name_len_eq _ _ _ _ HS1 HS2 HT HZ HN1 HN2) as EL. unfold zlen, KILO. rewrite !app_length. cbn [length].
  match goal with |- context [if ?b then None else _] => replace b with false by lia end.
  unfold permits. change OWNER_R with 256. rewrite (proj2 (reads_iff m2) HR2). rewrite orb_true_r. cbn [negb].
  match goal with |- context [if ?b then None else _] => replace b with false by lia end.
  rewrite Nat2Z.id, firstn_all2 by (rewrite app_length; cbn [length]; lia).
  rewrite cstr_id by (apply Forall_app; split; [eapply name_no_nul; eauto|repeat constructor; lia]).
  assert (HSM : zlen (t2 ++ [10]) < NPOS) by (unfold zlen, NPOS; rewrite app_length; cbn [length]; lia).
  rewrite (proj2 (by_name_taken (t2 ++ [10]) c2 HSM)).
  - rewrite Z.eqb_refl. auto.
  - apply (name_taken c2 t2 [] [10]); auto. constructor; [left; lia|constructor].
Qed.
