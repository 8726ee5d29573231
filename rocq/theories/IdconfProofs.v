(* fsids.conf: the parser takes exactly the texts of IdconfSpec. *)
From Verif Require Import Base AddrModel MntModel WalkModel RulesModel RulesSpec RulesProofs.
From Verif Require Import CaddrModel CaddrSpec CaddrProofs IdsmapModel IdconfModel IdconfSpec.

Lemma token_ne : forall t, token t -> t <> [].
Proof. intros t [H _] ->. apply H. right. reflexivity. Qed.
Lemma no61_space : forall l, Forall space l -> ~ In 61 l.
Proof. intros l H HI. rewrite Forall_forall in H. apply H in HI. unfold space in HI. lia. Qed.

(* ---- the body of a line ---- *)
Definition body_of (l : bytes) : bytes := sv_strip_ws (fst (sv_split_chr 35 l)).
Lemma body_iff : forall l b, small_text l -> (line_body l b <-> body_of l = b).
Proof.
  intros l b HL. unfold body_of. split.
  - intros (lead & trail & note & -> & H1 & H2 & H3 & H4 & H5).
    replace (lead ++ b ++ trail ++ note) with ((lead ++ b ++ trail) ++ note) in * by (rewrite !app_assoc; auto).
    rewrite cut_comment; [|auto| |auto].
    2:{ intros X. apply in_app_or in X. destruct X as [X|X]; [eapply no35_space; [|apply X]; auto|].
        apply in_app_or in X. destruct X as [X|X]; [contradiction|eapply no35_space; [|apply X]; auto]. }
    apply small_app_l in HL. destruct H5 as [-> |[H5 H6]].
    + apply strip_all; [cbn [app]; apply Forall_app; auto|exact HL].
    + apply strip_eq; auto.
  - intros <-. destruct (find_comment l) as (h & note & -> & H1 & H2). rewrite cut_comment by auto. pose proof (small_app_l _ _ HL) as HH.
    destruct (strip_cases h) as [HS|(lead & b & trail & -> & A & B & C & D)].
    + rewrite strip_all by auto. exists h, [], note. cbn [app]. split; [auto|]. split; [auto|]. split; [constructor|]. split; [auto|]. split; [intros []|auto].
    + rewrite strip_eq by auto. exists lead, trail, note. rewrite <- !app_assoc. split; [auto|]. split; [auto|]. split; [auto|]. split; [auto|]. split; [|auto].
      intros X. apply H1. apply in_or_app. right. apply in_or_app. auto.
Qed.
Lemma body_small : forall l b, small_text l -> line_body l b -> small_text b.
Proof. intros l b HL (lead & trail & note & -> & _). apply small_app_r in HL. apply small_app_l in HL. auto. Qed.
Lemma body_ends : forall l b, line_body l b -> b = [] \/ token b.
Proof. intros l b (lead & trail & note & _ & _ & _ & _ & _ & H). exact H. Qed.
Lemma strip_token : forall b, small_text b -> token b -> sv_strip_ws b = b.
Proof.
  intros b HL [H1 H2]. pose proof (strip_eq [] b [] ltac:(constructor) ltac:(constructor) H1 H2) as H. cbn [app] in H. rewrite app_nil_r in H. apply H. exact HL.
Qed.

(* ---- headers ---- *)
Definition brk (c : Z) : bool := none_of [91; 93] c.
Lemma brk_f : forall c, brk c = false <-> bracket c.
Proof. intros. unfold brk, none_of, one_of, bracket. cbn [existsb]. lia. Qed.
Lemma brk_t : forall c, brk c = true <-> ~ bracket c.
Proof. intros. pose proof (brk_f c). destruct (brk c); intuition congruence. Qed.
Lemma brks : forall l, Forall bracket l -> Forall (fun c => brk c = false) l.
Proof. intros l H. eapply Forall_impl; [|apply H]. intros c. apply brk_f. Qed.
Lemma brks' : forall l, Forall (fun c => brk c = false) l -> Forall bracket l.
Proof. intros l H. eapply Forall_impl; [|apply H]. intros c. apply brk_f. Qed.
Lemma space_no_brk : forall c, space c -> brk c = true.
Proof. intros c H. apply brk_t. unfold space, bracket in *. lia. Qed.
Lemma title_ends : forall s name, title s name -> token name /\ (forall a b, name = a :: b -> brk a = true) /\ brk (last name 0) = true /\ ~ In 61 name /\ s <> SecNil.
Proof.
  intros s name [[-> ->]|[-> ->]]; (split; [split; unfold space; cbn; lia|]; split; [intros a b E; injection E as <- _; reflexivity|]; split; [reflexivity|]; split; [|discriminate]);
  intros H; cbn [In] in H; repeat (destruct H as [H|H]; [lia|]); auto.
Qed.
Lemma sec_title : forall b s, s <> SecNil -> (sec_by_name b = s <-> title s b).
Proof.
  intros b s HS. unfold sec_by_name, title. pose proof (isequal_iff b []) as H0. pose proof (isequal_iff b s_users) as H1. pose proof (isequal_iff b s_groups) as H2.
  unfold s_users, s_groups in *. split.
  - destruct (sv_isequal b []); [congruence|]. destruct (sv_isequal b _); [intros <-; left; intuition auto|].
    destruct (sv_isequal b _); [intros <-; right; intuition auto|congruence].
  - intros [[-> ->]|[-> ->]]; reflexivity.
Qed.
Lemma last_app_ne : forall (a b : bytes) d, b <> [] -> last (a ++ b) d = last b d.
Proof.
  intros a b d HB. induction a as [|x a IH]; [reflexivity|]. cbn [app]. destruct (a ++ b) eqn:E; [destruct a; [cbn [app] in E; congruence|discriminate]|].
  rewrite <- IH. reflexivity.
Qed.
Lemma last_dep : forall (b : bytes) d e, b <> [] -> last b d = last b e.
Proof. intros b d e H. destruct (exists_last H) as [a [c ->]]. rewrite !last_end. auto. Qed.

Lemma header_iff : forall b s, small_text b -> b = [] \/ token b -> s <> SecNil -> (parse_sec_state b = s <-> header b s).
Proof.
  intros b s HL HB HS. unfold parse_sec_state.
  assert (EB : sv_strip_ws b = b) by (destruct HB as [-> |HB]; [reflexivity|apply strip_token; auto]). rewrite EB. cbv zeta. split.
  - destruct (starts_with 91 b) eqn:E1; cbn [andb]; [|congruence]. destruct (ends_with 93 b) eqn:E2; [|congruence]. intros H.
    destruct b as [|x b]; [discriminate|]. cbn [starts_with] in E1. unfold ends_with in E2. apply andb_true_iff in E2. destruct E2 as [_ E2].
    assert (x = 91) by lia. subst x. assert (E3 : last (91 :: b) 0 = 93) by lia. clear E1 E2.
    unfold sv_strip_any in H. rewrite trim_eq in H by auto. fold brk in H. change (none_of [91; 93]) with brk in H.
    set (w := 91 :: b) in *. pose proof (upto_from brk w) as EW. pose proof (brks' _ (upto_none brk w)) as HU.
    set (l := upto brk w) in *. set (fw := from brk w) in *.
    assert (HLF : small_text fw) by (rewrite EW in HL; apply small_app_r in HL; auto).
    destruct (run_end brk fw) as (a & r & EF & HR & HA). apply brks' in HR as HR'. rewrite EF in H, HLF.
    destruct HA as [-> |[a' [c [-> HC]]]].
    { rewrite chop_all in H; [|exact HR|exact HLF]. cbn in H. congruence. }
    rewrite chop_eq in H; [|exact HR|exact HC|exact HLF]. apply small_app_l in HLF.
    destruct (strip_cases (a' ++ [c])) as [HSP|(lead & name & trail & EN & A & B & C & D)].
    { rewrite strip_all in H by auto. cbn in H. congruence. }
    rewrite EN in H, HLF. rewrite strip_eq in H by auto. apply sec_title in H; [|auto].
    exists l, lead, name, trail, r. split.
    { rewrite EW, EF, EN, <- !app_assoc. auto. }
    split. { unfold l, w. cbn [upto]. reflexivity. }
    split.
    { rewrite EW, EF in E3. destruct r as [|y r]; [|rewrite app_assoc, last_app_ne in E3 by discriminate; exact E3].
      exfalso. rewrite app_nil_r, app_assoc, last_end in E3. subst c. apply brk_t in HC. apply HC. right. auto. }
    split; [exact HU|]. split; [exact HR'|]. auto.
  - intros (l & lead & name & trail & r & E & H1 & H2 & H3 & H4 & H5 & H6 & H7).
    destruct (title_ends _ _ H7) as (T1 & T2 & T3 & T4 & T5). pose proof (token_ne _ T1) as TN.
    assert (HR : r <> []) by (intros ->; cbn in H2; lia).
    assert (S1 : starts_with 91 b = true) by (destruct l as [|x l]; [cbn in H1; lia|]; rewrite E; cbn [app starts_with hd] in *; lia).
    assert (S2 : ends_with 93 b = true).
    { unfold ends_with. assert (HBN : b <> []) by (intros ->; discriminate). apply andb_true_iff. split; [destruct b; [congruence|unfold zlen; cbn [length]; lia]|].
      rewrite E, !app_assoc, last_app_ne by auto. lia. }
    rewrite S1, S2. cbn [andb]. apply sec_title; [auto|].
    assert (ST : sv_strip_any [91; 93] b = lead ++ name ++ trail).
    { unfold sv_strip_any. rewrite trim_eq by auto. change (none_of [91; 93]) with brk. rewrite E, from_app by (apply brks; auto).
      destruct (from_stop brk (lead ++ name ++ trail ++ r)) as [F1 _].
      { intros c q EQ. destruct lead as [|y lead]; [|cbn [app] in EQ; injection EQ as <- _; apply space_no_brk; inversion H5; auto].
        destruct name as [|y name]; [congruence|]. cbn [app] in EQ. injection EQ as <- _. eapply T2; eauto. }
      rewrite F1.
      assert (HM : lead ++ name ++ trail <> []) by (destruct lead; [destruct name; [congruence|discriminate]|discriminate]).
      destruct (exists_last HM) as [a [c EA]].
      replace (lead ++ name ++ trail ++ r) with ((lead ++ name ++ trail) ++ r) by (rewrite <- !app_assoc; auto). rewrite EA. apply chop_eq.
      - apply brks in H4. exact H4.
      - assert (EC : c = last (lead ++ name ++ trail) 0) by (rewrite EA, last_end; auto). fold (brk c). rewrite EC. destruct trail as [|y trail].
        + rewrite app_nil_r, last_app_ne by auto. exact T3.
        + rewrite app_assoc, last_app_ne by discriminate. apply space_no_brk. assert (NY : y :: trail <> []) by discriminate. destruct (exists_last NY) as [a2 [c2 E2]]. rewrite E2 in *.
          rewrite last_end. apply Forall_app in H6. destruct H6 as [_ H6]. inversion H6; auto.
      - rewrite E in HL. apply small_app_r in HL. rewrite <- EA, <- !app_assoc. exact HL. }
    rewrite ST, strip_eq; [exact H7|auto|auto|apply T1|apply T1|].
    rewrite E in HL. apply small_app_r in HL. rewrite !app_assoc in HL. apply small_app_l in HL. rewrite <- app_assoc in HL. exact HL.
Qed.
Lemma header_61 : forall b s, header b s -> ~ In 61 b.
Proof.
  intros b s (l & lead & name & trail & r & -> & _ & _ & H3 & H4 & H5 & H6 & H7) HI.
  assert (HB : forall x, Forall bracket x -> ~ In 61 x) by (intros x HX H; rewrite Forall_forall in HX; apply HX in H; unfold bracket in H; lia).
  destruct (title_ends _ _ H7) as (_ & _ & _ & T4 & _).
  repeat (apply in_app_or in HI; destruct HI as [HI|HI]; [solve [eapply HB; [|exact HI]; assumption|eapply no61_space; [|exact HI]; assumption|contradiction]|]). eapply HB; [|exact HI]; assumption.
Qed.
Lemma header_nil : forall b s, header b s -> s <> SecNil.
Proof. intros b s (l & lead & name & trail & r & _ & _ & _ & _ & _ & _ & _ & H7). apply (title_ends _ _ H7). Qed.
Lemma header_ne : forall b s, header b s -> b <> [].
Proof. intros b s (l & lead & name & trail & r & -> & H & _) E. destruct l; [cbn in H; lia|discriminate]. Qed.

(* ---- entries ---- *)
Lemma entry_iff : forall b name value, small_text b -> token b ->
  (entry b name value <-> let '(x, y) := sv_split_chr 61 b in sv_strip_ws x = name /\ sv_strip_ws y = value /\ name <> [] /\ value <> []).
Proof.
  intros b name value HL HB. split.
  - intros (s1 & s2 & -> & H1 & H2 & H3 & H4 & H5).
    replace (name ++ s1 ++ 61 :: s2 ++ value) with ((name ++ s1) ++ 61 :: (s2 ++ value)) in * by (rewrite <- !app_assoc; auto).
    rewrite kv_split; [|auto|intros X; apply in_app_or in X; destruct X as [X|X]; [auto|eapply no61_space; [|apply X]; auto]].
    pose proof (small_app_l _ _ HL) as HLX. apply small_app_r in HL. change (61 :: s2 ++ value) with ([61] ++ (s2 ++ value)) in HL. apply small_app_r in HL.
    split; [|split; [|split; apply token_ne; auto]].
    + apply (strip_eq [] name s1); auto; apply H3.
    + pose proof (strip_eq s2 value [] H2 ltac:(constructor) ltac:(apply H4) ltac:(apply H4)) as H. rewrite app_nil_r in H. apply H. exact HL.
  - destruct (sv_split_chr 61 b) as [x y] eqn:ES. intros (H1 & H2 & H3 & H4).
    assert (HY : y <> []) by (intros ->; cbn in H2; congruence). pose proof (kv_inv b x y HL ES HY) as EB.
    assert (HX61 : ~ In 61 x).
    { rewrite split_chr_eq in ES by auto. injection ES as <- _. intros X. pose proof (upto_none (Z.eqb 61) b) as HF. rewrite Forall_forall in HF. apply HF in X. lia. }
    assert (HLX : small_text x) by (rewrite EB in HL; apply small_app_l in HL; auto).
    assert (HLY : small_text y) by (rewrite EB in HL; change (x ++ 61 :: y) with (x ++ [61] ++ y) in HL; do 2 apply small_app_r in HL; auto).
    destruct (strip_cases x) as [HS|(l1 & n1 & t1 & -> & A1 & B1 & C1 & D1)]; [rewrite strip_all in H1 by auto; congruence|].
    destruct (strip_cases y) as [HS|(l2 & n2 & t2 & -> & A2 & B2 & C2 & D2)]; [rewrite strip_all in H2 by auto; congruence|].
    rewrite strip_eq in H1, H2 by auto. subst n1 n2.
    assert (l1 = []).
    { destruct l1 as [|c l1]; [auto|]. exfalso. destruct HB as [HB _]. rewrite EB in HB. cbn [app hd] in HB. apply HB. inversion A1; auto. }
    assert (t2 = []).
    { destruct t2 as [|c t2]; [auto|]. exfalso. destruct HB as [_ HB]. rewrite EB in HB. change (61 :: l2 ++ value ++ c :: t2) with ([61] ++ l2 ++ value ++ c :: t2) in HB.
      rewrite !app_assoc, last_app_ne in HB by discriminate. apply HB.
      assert (NY : c :: t2 <> []) by discriminate. destruct (exists_last NY) as [a [d E]]. rewrite E in *. rewrite last_end. apply Forall_app in B2. destruct B2 as [_ B2]. inversion B2; auto. }
    subst l1 t2. cbn [app] in *. rewrite app_nil_r in *. exists t1, l2. split; [rewrite EB, <- app_assoc; auto|]. split; [auto|]. split; [auto|]. split; [split; auto|]. split; [split; auto|].
    intros X. apply HX61. apply in_or_app. auto.
Qed.

(* ---- numbers and names ---- *)
Lemma value_iff : forall v u, id_by_value v = Some u <-> id_value v u.
Proof.
  intros v u. unfold id_value. rewrite <- parse_uid_iff. unfold id_by_value, str_as_id, str_as_long, parse_uid, parse_int, parse_long, zlen.
  change (INT_MAX / 2) with 1073741823. change INT_MAX with 2147483647. change (- 2 ^ 31) with (-2147483648).
  destruct (Z.of_nat (length v) >=? 64) eqn:E1.
  - split; [discriminate|lia].
  - replace (Z.of_nat (length v) >=? 80) with false by lia. destruct (strtol v) as [[[w ra] e]|]; [|split; [discriminate|intros [_ H]; auto]].
    destruct ra; [split; [discriminate|intros [_ H]; auto]|]. destruct (Z.of_nat (length e) >? 1); [split; [discriminate|intros [_ H]; auto]|].
    destruct ((w >? 2147483647) || (w <? -2147483648)) eqn:E2.
    + replace ((w <? 0) || (w >? 1073741823)) with true by lia. split; [discriminate|intros [_ H]; auto].
    + split; [intros H; split; [lia|auto]|tauto].
Qed.

Section Db.
Variables (db : userdb) (r1 r2 : Z).
Hypotheses (HR1 : 0 <= r1) (HR2 : 0 <= r2).

Lemma fits_eq : forall n, fits r1 r2 n = (n <=? 1024).
Proof.
  intros n. unfold fits, getxx_bsz, cmd_sysconf. replace (r1 <? 0) with false by lia. replace (r2 <? 0) with false by lia. reflexivity.
Qed.
Lemma user_iff : forall name u, zlen name >=? NAME_BUF = false /\ uid_by_name db r1 r2 name = Some u <-> user_named db name u.
Proof.
  intros name u. unfold user_named, uid_by_name, NAME_BUF, zlen. split.
  - intros [H1 H]. split; [lia|]. destruct (pwnam db name) as [e|]; [|discriminate]. rewrite fits_eq in H. destruct (pw_need e <=? 1024) eqn:E; [|discriminate].
    injection H as <-. exists e. split; [auto|]. split; [lia|auto].
  - intros [H1 (e & -> & H2 & <-)]. split; [lia|]. rewrite fits_eq. replace (pw_need e <=? 1024) with true by lia. auto.
Qed.
Lemma group_iff : forall name u, zlen name >=? NAME_BUF = false /\ gid_by_name db r1 r2 name = Some u <-> group_named db name u.
Proof.
  intros name u. unfold group_named, gid_by_name, NAME_BUF, zlen. split.
  - intros [H1 H]. split; [lia|]. destruct (grnam db name) as [e|]; [|discriminate]. rewrite fits_eq in H. destruct (gr_need e <=? 1024) eqn:E; [|discriminate].
    injection H as <-. exists e. split; [auto|]. split; [lia|auto].
  - intros [H1 (e & -> & H2 & <-)]. split; [lia|]. rewrite fits_eq. replace (gr_need e <=? 1024) with true by lia. auto.
Qed.

Lemma user_conf_iff : forall b ids ids', small_text b -> token b ->
  (parse_user_conf db r1 r2 b ids = Some ids' <-> exists name value fs host, entry b name value /\ user_named db name fs /\ id_value value host /\
     ids' = mkFsids (i_users ids ++ [(host, fs)]) (i_groups ids)).
Proof.
  intros b ids ids' HL HB. unfold parse_user_conf. split.
  - destruct (sv_split_chr 61 b) as [x y] eqn:ES. cbv zeta. destruct (sv_isempty (sv_strip_ws x)) eqn:E1; [discriminate|]. destruct (sv_isempty (sv_strip_ws y)) eqn:E2; [discriminate|].
    cbn [orb]. destruct (zlen (sv_strip_ws x) >=? NAME_BUF) eqn:E3; [discriminate|]. destruct (uid_by_name db r1 r2 (sv_strip_ws x)) as [fs|] eqn:E4; [|discriminate].
    destruct (id_by_value (sv_strip_ws y)) as [host|] eqn:E5; [|discriminate]. intros H. injection H as <-.
    exists (sv_strip_ws x), (sv_strip_ws y), fs, host. split; [|split; [apply user_iff; auto|split; [apply value_iff; auto|auto]]].
    apply entry_iff; auto. rewrite ES. apply isempty_not in E1. apply isempty_not in E2. auto.
  - intros (name & value & fs & host & HE & HU & HV & ->). apply entry_iff in HE; auto. destruct (sv_split_chr 61 b) as [x y]. destruct HE as (-> & -> & H3 & H4). cbv zeta.
    apply isempty_not in H3. apply isempty_not in H4. rewrite H3, H4. cbn [orb]. apply user_iff in HU. destruct HU as [-> ->]. apply value_iff in HV. rewrite HV. auto.
Qed.
Lemma group_conf_iff : forall b ids ids', small_text b -> token b ->
  (parse_group_conf db r1 r2 b ids = Some ids' <-> exists name value host fs, entry b name value /\ group_named db name host /\ id_value value fs /\
     ids' = mkFsids (i_users ids) (i_groups ids ++ [(host, fs)])).
Proof.
  intros b ids ids' HL HB. unfold parse_group_conf. split.
  - destruct (sv_split_chr 61 b) as [x y] eqn:ES. cbv zeta. destruct (sv_isempty (sv_strip_ws x)) eqn:E1; [discriminate|]. destruct (sv_isempty (sv_strip_ws y)) eqn:E2; [discriminate|].
    cbn [orb]. destruct (zlen (sv_strip_ws x) >=? NAME_BUF) eqn:E3; [discriminate|]. destruct (gid_by_name db r1 r2 (sv_strip_ws x)) as [host|] eqn:E4; [|discriminate].
    destruct (id_by_value (sv_strip_ws y)) as [fs|] eqn:E5; [|discriminate]. intros H. injection H as <-.
    exists (sv_strip_ws x), (sv_strip_ws y), host, fs. split; [|split; [apply group_iff; auto|split; [apply value_iff; auto|auto]]].
    apply entry_iff; auto. rewrite ES. apply isempty_not in E1. apply isempty_not in E2. auto.
  - intros (name & value & host & fs & HE & HU & HV & ->). apply entry_iff in HE; auto. destruct (sv_split_chr 61 b) as [x y]. destruct HE as (-> & -> & H3 & H4). cbv zeta.
    apply isempty_not in H3. apply isempty_not in H4. rewrite H3, H4. cbn [orb]. apply group_iff in HU. destruct HU as [-> ->]. apply value_iff in HV. rewrite HV. auto.
Qed.

(* ---- one line ---- *)
Inductive does : sect -> bytes -> sect -> list (Z * Z) -> list (Z * Z) -> Prop :=
| do_blank cur l : line_body l [] -> does cur l cur [] []
| do_head cur l b s : line_body l b -> header b s -> s <> cur -> does cur l s [] []
| do_none l b : line_body l b -> b <> [] -> (forall s, ~ header b s) -> does SecNil l SecNil [] []
| do_user l b name value fs host : line_body l b -> entry b name value -> user_named db name fs -> id_value value host ->
    does SecUsers l SecUsers [(host, fs)] []
| do_group l b name value host fs : line_body l b -> entry b name value -> group_named db name host -> id_value value fs ->
    does SecGroups l SecGroups [] [(host, fs)].
Definition plus (ids : fsids) (us gs : list (Z * Z)) : fsids := mkFsids (i_users ids ++ us) (i_groups ids ++ gs).

Lemma sect_eqb_iff : forall a b, sect_eqb a b = true <-> a = b.
Proof. intros [] []; cbn; intuition congruence. Qed.
Lemma plus_nil : forall ids, plus ids [] [] = ids.
Proof. intros [u g]. unfold plus. cbn [i_users i_groups]. rewrite !app_nil_r. auto. Qed.
Lemma entry_61 : forall b name value, entry b name value -> In 61 b.
Proof. intros b name value (s1 & s2 & -> & _). apply in_or_app. right. apply in_or_app. right. left. auto. Qed.

Lemma ids_line_eq : forall l cur ids, ids_line db r1 r2 l (cur, ids) = ids_sline db r1 r2 cur ids (body_of l).
Proof. intros. unfold ids_line, body_of. reflexivity. Qed.
Lemma body_some : forall l, exists b, body_of l = b.
Proof. intros l. exists (body_of l). reflexivity. Qed.
Lemma ids_line_iff : forall l cur ids cur' ids', small_text l ->
  (ids_line db r1 r2 l (cur, ids) = Some (cur', ids') <-> exists us gs, does cur l cur' us gs /\ ids' = plus ids us gs).
Proof.
  intros l cur ids cur' ids' HL. rewrite ids_line_eq. destruct (body_some l) as [b EB0]. rewrite EB0. unfold ids_sline.
  assert (HB : line_body l b) by (apply body_iff; auto). pose proof (body_small _ _ HL HB) as HLB. pose proof (body_ends _ _ HB) as HE.
  assert (HU : forall b', line_body l b' -> b' = b) by (intros b' H; apply body_iff in H; [congruence|auto]).
  clear EB0.
  assert (HH : forall s, header b s -> parse_sec_state b = s) by (intros s H; apply header_iff; auto; eapply header_nil; eauto).
  assert (HG : parse_sec_state b <> SecNil -> header b (parse_sec_state b)) by (intros H; apply header_iff; auto).
  destruct (next_sec (parse_sec_state b) cur) eqn:EQ; unfold next_sec in EQ.
  - apply andb_true_iff in EQ. destruct EQ as [E1 E2]. apply negb_true_iff in E1. apply negb_true_iff in E2.
    assert (N1 : parse_sec_state b <> SecNil) by (intros E; apply sect_eqb_iff in E; congruence).
    assert (N2 : parse_sec_state b <> cur) by (intros E; apply sect_eqb_iff in E; congruence). pose proof (HG N1) as HD. split.
    + intros H. injection H as <- <-. exists [], []. split; [eapply do_head; eauto|rewrite plus_nil; auto].
    + intros (us & gs & HD' & ->). inversion HD'; subst;
        (match goal with H : line_body l _ |- _ => apply HU in H; subst end).
      * exfalso. eapply header_ne; eauto.
      * rewrite (HH _ H0), plus_nil. auto.
      * exfalso. eapply H1; eauto.
      * exfalso. eapply header_61; [apply HD|eapply entry_61; eauto].
      * exfalso. eapply header_61; [apply HD|eapply entry_61; eauto].
  - assert (HN : forall s, header b s -> s = cur).
    { intros s H. pose proof (header_nil _ _ H). apply HH in H as HS. rewrite HS in EQ. destruct (sect_eqb s SecNil) eqn:E3; [apply sect_eqb_iff in E3; congruence|].
      cbn [negb andb] in EQ. apply negb_false_iff in EQ. apply sect_eqb_iff in EQ. auto. }
    destruct (sv_isempty b) eqn:EB; cbn [negb].
    + apply isempty_iff in EB. split.
      * intros H. injection H as <- <-. exists [], []. split; [constructor; rewrite <- EB; auto|rewrite plus_nil; auto].
      * intros (us & gs & HD' & ->). inversion HD'; subst;
          (match goal with H : line_body l _ |- _ => apply HU in H end); try congruence.
        -- rewrite plus_nil. auto.
        -- exfalso. apply (header_ne _ _ H0). congruence.
        -- exfalso. apply entry_61 in H0. rewrite H in H0. destruct H0.
        -- exfalso. apply entry_61 in H0. rewrite H in H0. destruct H0.
    + apply isempty_not in EB. destruct HE as [HE|HE]; [congruence|]. split.
      * destruct (ids_parse_line db r1 r2 cur b ids) as [i2|] eqn:EP; [|discriminate]. intros H. injection H as <- <-. destruct cur; cbn [ids_parse_line] in EP.
        -- injection EP as <-. exists [], []. split; [|rewrite plus_nil; auto]. eapply do_none; eauto. intros s H. pose proof (header_nil _ _ H). apply HN in H. congruence.
        -- apply user_conf_iff in EP; auto. destruct EP as (name & value & fs & host & H1 & H2 & H3 & ->). exists [(host, fs)], []. split; [econstructor; eauto|]. unfold plus. rewrite app_nil_r. auto.
        -- apply group_conf_iff in EP; auto. destruct EP as (name & value & fs & host & H1 & H2 & H3 & ->). exists [], [(fs, host)]. split; [econstructor; eauto|]. unfold plus. rewrite app_nil_r. auto.
      * intros (us & gs & HD' & ->). inversion HD'; subst; (match goal with H : line_body l _ |- _ => apply HU in H end).
        -- congruence.
        -- subst b0. apply HN in H0. congruence.
        -- cbn [ids_parse_line]. rewrite plus_nil. auto.
        -- subst b0. cbn [ids_parse_line]. assert (EP : parse_user_conf db r1 r2 b ids = Some (plus ids [(host, fs)] [])).
           { apply user_conf_iff; auto. exists name, value, fs, host. unfold plus. rewrite app_nil_r. auto. }
           rewrite EP. auto.
        -- subst b0. cbn [ids_parse_line]. assert (EP : parse_group_conf db r1 r2 b ids = Some (plus ids [] [(host, fs)])).
           { apply group_conf_iff; auto. exists name, value, host, fs. unfold plus. rewrite app_nil_r. auto. }
           rewrite EP. auto.
Qed.

(* ---- all lines ---- *)
Fixpoint fold_ids (ls : list bytes) (st : sect * fsids) : option fsids :=
  match ls with
  | [] => Some (snd st)
  | l :: r => match ids_line db r1 r2 l st with None => None | Some st' => fold_ids r st' end
  end.
Lemma fold_cons : forall l r st, fold_ids (l :: r) st = match ids_line db r1 r2 l st with None => None | Some st' => fold_ids r st' end.
Proof. intros. cbn [fold_ids]. destruct (ids_line db r1 r2 l st); auto. Qed.
Lemma ids_line_nil : forall st, ids_line db r1 r2 [] st = Some st.
Proof. intros [s i]. destruct s; reflexivity. Qed.
Lemma ids_lines_joined : forall ls, ls <> [] -> Forall (fun l => ~ In 10 l) ls -> small_text (joined ls) ->
  forall k st, (length ls <= S k)%nat ->
  ids_lines db r1 r2 (S k) (sv_split_chr 10 (joined ls)) st = fold_ids ls st.
Proof.
  induction ls as [|l ls IH]; intros HN HF HL k st HK; [congruence|]. inversion HF; subst. destruct ls as [|l2 r].
  - cbn [joined] in *. rewrite (split_nl_one (fun _ => None)) by auto. cbn [ids_lines fold_ids]. change (sv_isempty []) with true.
    rewrite andb_true_r. destruct (sv_isempty l) eqn:E.
    + apply isempty_iff in E. subst l. rewrite ids_line_nil. reflexivity.
    + destruct (ids_line db r1 r2 l st) as [st'|]; [|reflexivity]. destruct k; reflexivity.
  - change (joined (l :: l2 :: r)) with (l ++ 10 :: joined (l2 :: r)) in *. rewrite (split_nl (fun _ => None)) by auto.
    assert (HL2 : small_text (joined (l2 :: r))).
    { change (l ++ 10 :: joined (l2 :: r)) with (l ++ [10] ++ joined (l2 :: r)) in HL. do 2 apply small_app_r in HL. auto. }
    cbn [ids_lines]. destruct (sv_isempty l && sv_isempty (joined (l2 :: r))) eqn:E.
    + apply andb_true_iff in E. destruct E as [E1 E2]. apply isempty_iff in E1. apply isempty_iff in E2. subst l.
      apply joined_nil in E2. destruct E2 as [E2|E2]; [discriminate|]. rewrite E2, !fold_cons, ids_line_nil, fold_cons, ids_line_nil. reflexivity.
    + rewrite (fold_cons l).
      destruct (ids_line db r1 r2 l st) as [st'|]; [|reflexivity].
      cbn [length] in HK. destruct k as [|k]; [lia|]. apply IH; [discriminate|auto|auto|cbn [length]; lia].
Qed.
Lemma lines_ids_does : forall cur l ls us gs, lines_ids db cur (l :: ls) us gs <->
  exists cur' u1 g1 u2 g2, does cur l cur' u1 g1 /\ lines_ids db cur' ls u2 g2 /\ us = u1 ++ u2 /\ gs = g1 ++ g2.
Proof.
  intros cur l ls us gs. split.
  - intros H. inversion H; subst.
    + exists cur, [], [], us, gs. split; [constructor; auto|auto].
    + exists s, [], [], us, gs. split; [eapply do_head; eauto|auto].
    + exists SecNil, [], [], us, gs. split; [eapply do_none; eauto|auto].
    + exists SecUsers, [(host, fs)], [], us0, gs. split; [eapply do_user; eauto|auto].
    + exists SecGroups, [], [(host, fs)], us, gs0. split; [eapply do_group; eauto|auto].
  - intros (cur' & u1 & g1 & u2 & g2 & HD & HL & -> & ->). inversion HD; subst; cbn [app].
    + apply li_blank; auto.
    + eapply li_head; eauto.
    + eapply li_none; eauto.
    + eapply li_user; eauto.
    + eapply li_group; eauto.
Qed.
Lemma fold_ids_iff : forall ls cur ids ids', Forall small_text ls ->
  (fold_ids ls (cur, ids) = Some ids' <-> exists us gs, lines_ids db cur ls us gs /\ ids' = plus ids us gs).
Proof.
  induction ls as [|l ls IH]; intros cur ids ids' HS; cbn [fold_ids snd].
  - split.
    + intros E. injection E as <-. exists [], []. split; [constructor|rewrite plus_nil; auto].
    + intros (us & gs & H & ->). inversion H; subst. rewrite plus_nil. auto.
  - inversion HS; subst. split.
    + destruct (ids_line db r1 r2 l (cur, ids)) as [[cur' i2]|] eqn:E; [|discriminate]. intros H. apply ids_line_iff in E; auto. destruct E as (u1 & g1 & HD & ->).
      apply IH in H; auto. destruct H as (u2 & g2 & HL & ->). exists (u1 ++ u2), (g1 ++ g2). split; [apply lines_ids_does; exists cur', u1, g1, u2, g2; auto|].
      unfold plus. cbn [i_users i_groups]. rewrite !app_assoc. auto.
    + intros (us & gs & H & ->). apply lines_ids_does in H. destruct H as (cur' & u1 & g1 & u2 & g2 & HD & HL & -> & ->).
      assert (E : ids_line db r1 r2 l (cur, ids) = Some (cur', plus ids u1 g1)) by (apply ids_line_iff; auto; exists u1, g1; auto). rewrite E.
      apply IH; auto. exists u2, g2. split; [auto|]. unfold plus. cbn [i_users i_groups]. rewrite !app_assoc. auto.
Qed.
Lemma ids_parse_iff : forall text ids, small_text text ->
  (ids_parse db r1 r2 text = Some ids <-> exists ls, text = joined ls /\ Forall (fun l => ~ In 10 l) ls /\ lines_ids db SecNil ls (i_users ids) (i_groups ids)).
Proof.
  intros text ids HL. assert (HG : forall ls, ls <> [] -> text = joined ls -> Forall (fun l => ~ In 10 l) ls ->
    ids_parse db r1 r2 text = fold_ids ls (SecNil, NO_IDS)).
  { intros ls H1 H2 H3. unfold ids_parse. subst text. apply ids_lines_joined; auto. apply (joined_len (fun _ => None)). }
  assert (HI : forall us gs, plus NO_IDS us gs = mkFsids us gs) by (intros; reflexivity). split.
  - destruct (lines_exist (fun _ => None) text) as [ls [H1 [H2 H3]]]. rewrite (HG ls) by auto. intros H.
    apply fold_ids_iff in H; [|apply joined_small; rewrite <- H2; auto]. destruct H as (us & gs & HA & ->). exists ls. split; [auto|]. split; [auto|]. rewrite HI. exact HA.
  - intros (ls & H1 & H2 & H3). destruct ls as [|l ls].
    + cbn [joined] in H1. subst text. inversion H3 as [cur EC EL EU EG| | | | |]; subst. destruct ids as [u g]. cbn [i_users i_groups] in *. subst u g. reflexivity.
    + rewrite (HG (l :: ls)) by (auto; discriminate). apply fold_ids_iff; [apply joined_small; rewrite <- H1; auto|].
      exists (i_users ids), (i_groups ids). split; [auto|]. rewrite HI. destruct ids; auto.
Qed.
End Db.
