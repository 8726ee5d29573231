(* C59: fsids.conf *)
From Verif Require Import Base AddrModel MntModel WalkModel RulesModel RulesSpec RulesProofs RulesProps.
From Verif Require Import CaddrModel CaddrSpec CaddrProofs IdsmapModel IdsmapProps IdconfModel IdconfSpec IdconfProofs.

(* A command goes on with these users and groups if and only if the file says them *)
Theorem ids_read_iff : forall db r1 r2 b ids, 0 <= r1 -> 0 <= r2 ->
  (ids_load db r1 r2 b = Some ids <-> file_says db b ids).
Proof.
  intros db r1 r2 b ids H1 H2. unfold ids_load, file_says. change (2 ^ 20) with 1048576. unfold zlen. split.
  - destruct (Z.of_nat (length b) >=? 1048576) eqn:E1; [discriminate|]. destruct (forallb chr_isascii b) eqn:E2; [|discriminate]. cbn [negb]. intros H.
    split; [lia|]. split; [apply Forall_forall; intros c HC; rewrite forallb_forall in E2; apply E2 in HC; unfold chr_isascii in HC; lia|].
    destruct (cstr_text b) as (rest & EB & T1 & T2). assert (HS : small_text (cstr b)) by (eapply text_small; [apply cstr_text|unfold zlen; lia]).
    apply ids_parse_iff in H; auto. destruct H as (ls & L1 & L2 & L3). exists (cstr b), rest, ls. auto 10.
  - intros (E1 & E2 & text & rest & ls & EB & T1 & T2 & L1 & L2 & L3). replace (Z.of_nat (length b) >=? 1048576) with false by lia.
    assert (E3 : forallb chr_isascii b = true) by (apply forallb_forall; intros c HC; rewrite Forall_forall in E2; apply E2 in HC; unfold chr_isascii; lia).
    rewrite E3. cbn [negb]. assert (HT : text_of b text) by (exists rest; auto). rewrite (text_cstr _ _ HT).
    apply ids_parse_iff; auto. { eapply text_small; [apply HT|unfold zlen; lia]. } exists ls. auto.
Qed.
Print Assumptions ids_read_iff.

(* joe is user 1000 of group 1000; amy is user 2000000000; huge is group 7, whose members fill
   more than 1024 bytes *)
Definition n_joe : bytes := [106; 111; 101].
Definition n_amy : bytes := [97; 109; 121].
Definition n_root : bytes := [114; 111; 111; 116].
Definition n_huge : bytes := [104; 117; 103; 101].
Definition toy_pw : list pwent := [mkPw n_root 0 0 60; mkPw n_joe 1000 1000 60; mkPw n_amy 2000000000 1000 60].
Definition toy_gr : list grent := [mkGr n_root 0 20; mkGr n_joe 1000 20; mkGr n_huge 7 2000].
Definition toy_db : userdb :=
  mkDb (fun n => find (fun e => if list_eq_dec Z.eq_dec (pw_name e) n then true else false) toy_pw)
       (fun u => find (fun e => pw_uid e =? u) toy_pw)
       (fun n => find (fun e => if list_eq_dec Z.eq_dec (gr_name e) n then true else false) toy_gr)
       (fun g => find (fun e => gr_gid e =? g) toy_gr)
       (fun _ => [1000]).
(* "# mine\n[users]\n joe = 5 # me\n\nroot=0\n[ groups ]\nroot=7\n" *)
Definition toy_text : bytes :=
  [35; 32; 109; 10; 91; 117; 115; 101; 114; 115; 93; 10; 32; 106; 111; 101; 32; 61; 32; 53; 32; 35; 109; 101; 10; 10;
   114; 111; 111; 116; 61; 48; 10; 91; 32; 103; 114; 111; 117; 112; 115; 32; 93; 10; 114; 111; 111; 116; 61; 55; 10].
Example ids_read_ex : ids_load toy_db 1024 1024 toy_text = Some (mkFsids [(5, 1000); (0, 0)] [(0, 7)]).
Proof. vm_compute. reflexivity. Qed.

(* ---- writing and reading back ---- *)
Lemma nl_joined : forall ls rest, concat (map (fun l => l ++ [10]) ls) ++ joined rest = joined (ls ++ rest) \/ rest = [].
Proof.
  intros ls rest. destruct rest as [|r0 rest]; [auto|left]. induction ls as [|l ls IH]; [reflexivity|].
  cbn [map concat app]. destruct (ls ++ r0 :: rest) as [|y ys] eqn:E; [destruct ls; discriminate|].
  change (joined (l :: y :: ys)) with (l ++ 10 :: joined (y :: ys)). rewrite <- IH, <- !app_assoc. reflexivity.
Qed.
Definition line_of (name : bytes) (id : Z) : bytes := name ++ [32; 61; 32] ++ print_d id.
Lemma plain_print : forall u, 0 <= u < 1073741824 -> plain (print_d u) u.
Proof.
  intros u H. destruct (print_d_ok u ltac:(lia)) as (H1 & H2 & H3). split; [auto|]. split; [|lia].
  exact H3.
Qed.
Lemma plain_token : forall v u, plain v u -> token v.
Proof.
  intros v u [HN _]. pose proof (plain_digits _ _ HN) as HD. assert (v <> []) by (intros ->; inversion HN; destruct s; discriminate).
  split; unfold space.
  - destruct v as [|c v]; [congruence|]. inversion HD; subst. cbn [hd]. lia.
  - destruct (exists_last H) as [a [c ->]]. rewrite last_last. apply Forall_app in HD. destruct HD as [_ HD]. inversion HD; subst. lia.
Qed.
Lemma id_line_eq : forall name id, plain_name name -> 0 <= id < 1073741824 -> id_line name id = line_of name id ++ [10].
Proof.
  intros name id (_ & HN & _) HI. unfold id_line, line_of. unfold u32. rewrite Z.mod_small by lia. pose proof (plain_len _ _ (plain_print id HI)) as HL.
  rewrite firstn_all2; [rewrite <- !app_assoc; auto|]. rewrite !app_length. cbn [length]. lia.
Qed.
Lemma line_chars : forall name id, plain_name name -> 0 <= id < 1073741824 ->
  Forall (fun c => 0 < c < 128 /\ c <> 10 /\ c <> 35) (line_of name id).
Proof.
  intros name id (_ & _ & HN) HI. unfold line_of. apply Forall_app. split; [eapply Forall_impl; [|apply HN]; intros c HC; cbv beta in *; lia|].
  apply Forall_app. split; [repeat constructor; lia|]. destruct (plain_print id HI) as [HP _]. apply plain_digits in HP. eapply Forall_impl; [|apply HP]. intros c HC. cbv beta in *. lia.
Qed.
Lemma line_entry : forall name id, plain_name name -> 0 <= id < 1073741824 ->
  line_body (line_of name id) (line_of name id) /\ entry (line_of name id) name (print_d id) /\ id_value (print_d id) id.
Proof.
  intros name id HN HI. pose proof (plain_print id HI) as HP. pose proof (plain_token _ _ HP) as HT. pose proof (line_chars _ _ HN HI) as HC.
  destruct HN as (HN & HL & HF). split; [|split; [|split; [|apply plain_value; auto]]].
  - exists [], [], []. cbn [app]. rewrite !app_nil_r. split; [auto|]. split; [constructor|]. split; [constructor|]. split; [left; auto|].
    split; [intros X; rewrite Forall_forall in HC; apply HC in X; lia|]. right. unfold line_of. split.
    + destruct HN as [HN _]. destruct name as [|c name]; [exfalso; apply HN; right; auto|exact HN].
    + rewrite !app_assoc, last_app_ne by (apply token_ne; auto). apply HT.
  - exists [32], [32]. split; [reflexivity|]. split; [repeat constructor; unfold space; lia|]. split; [repeat constructor; unfold space; lia|]. split; [auto|]. split; [auto|].
    intros X. rewrite Forall_forall in HF. apply HF in X. lia.
  - pose proof (plain_len _ _ HP). lia.
Qed.

Section Back.
Variables (db : userdb) (r1 r2 : Z).
Hypotheses (HR1 : 0 <= r1) (HR2 : 0 <= r2) (HDB : sound_db db).

Definition ok_user (e : Z * Z) : Prop := known_user db (fst e) /\ 0 <= snd e < 1073741824.
Definition ok_group (e : Z * Z) : Prop := known_group db (snd e) /\ 0 <= fst e < 1073741824.
Definition good_text (b : bytes) : Prop := Forall (fun c => 0 < c < 128) b.

Lemma user_lines : forall es, Forall ok_user es -> exists ls, all_lines (user_line db r1 r2) es = Some (concat (map (fun l => l ++ [10]) ls)) /\
  Forall (fun l => ~ In 10 l) ls /\ good_text (concat (map (fun l => l ++ [10]) ls)) /\ (length (concat (map (fun l => l ++ [10%Z]) ls)) <= 300 * length es)%nat /\
  forall rest us gs, lines_ids db SecUsers rest us gs -> lines_ids db SecUsers (ls ++ rest) (map swap es ++ us) gs.
Proof.
  induction es as [|[h f] es IH]; intros HF.
  - exists []. split; [reflexivity|]. split; [constructor|]. split; [constructor|]. split; [cbn [map concat length]; lia|]. intros rest us gs H. exact H.
  - inversion HF as [|x l HE HF' EX]; subst. destruct (IH HF') as (ls & E & H1 & H2 & H3 & H4). destruct HE as [(e & EP & HN & HB) HI]. cbn [fst snd] in *.
    pose proof (id_line_eq _ _ HN HI) as EL. pose proof (line_chars _ _ HN HI) as HC. destruct (line_entry _ _ HN HI) as (B1 & B2 & B3).
    set (l := line_of (pw_name e) f) in *. exists (l :: ls).
    assert (EU : user_line db r1 r2 (h, f) = Some (l ++ [10])).
    { unfold user_line, uid_to_name. cbn [fst snd]. rewrite EP, fits_eq by auto. replace (pw_need e <=? 1024) with true by lia.
      unfold name_fit, zlen, NAME_BUF. destruct HN as (HT & HL & _). apply token_ne in HT. destruct (pw_name e) as [|c n] eqn:EN; [congruence|].
      cbn [length] in *. replace (Z.of_nat (S (length n)) =? 0) with false by lia. replace (Z.of_nat (S (length n)) >=? 256) with false by lia. cbn [orb]. rewrite <- EL. auto. }
    split; [cbn [all_lines map concat]; rewrite EU, E; auto|]. split; [constructor; auto; intros X; rewrite Forall_forall in HC; apply HC in X; lia|].
    split; [cbn [map concat]; apply Forall_app; split; [apply Forall_app; split; [eapply Forall_impl; [|apply HC]; intros c X; cbv beta in *; lia|repeat constructor; lia]|auto]|].
    split.
    { cbn [map concat]. rewrite !app_length. cbn [length] in *. unfold l, line_of. rewrite !app_length. pose proof (plain_len _ _ (plain_print f HI)). destruct HN as (_ & HL & _).
      cbn [length]. lia. }
    intros rest us gs H. cbn [app map]. change (swap (h, f)) with (f, h). eapply li_user; [apply B1|apply B2| |apply B3|apply H4; auto].
    destruct HN as (_ & HL & _). split; [lia|]. destruct HDB as [HD _]. destruct (HD _ _ EP) as (e' & D1 & D2 & D3). exists e'. split; [auto|]. split; [lia|auto].
Qed.
Lemma group_lines : forall es, Forall ok_group es -> exists ls, all_lines (group_line db r1 r2) es = Some (concat (map (fun l => l ++ [10]) ls)) /\
  Forall (fun l => ~ In 10 l) ls /\ good_text (concat (map (fun l => l ++ [10]) ls)) /\ (length (concat (map (fun l => l ++ [10%Z]) ls)) <= 300 * length es)%nat /\
  forall rest us gs, lines_ids db SecGroups rest us gs -> lines_ids db SecGroups (ls ++ rest) us (map swap es ++ gs).
Proof.
  induction es as [|[h f] es IH]; intros HF.
  - exists []. split; [reflexivity|]. split; [constructor|]. split; [constructor|]. split; [cbn [map concat length]; lia|]. intros rest us gs H. exact H.
  - inversion HF as [|x l HE HF' EX]; subst. destruct (IH HF') as (ls & E & H1 & H2 & H3 & H4). destruct HE as [(e & EP & HN & HB) HI]. cbn [fst snd] in *.
    pose proof (id_line_eq _ _ HN HI) as EL. pose proof (line_chars _ _ HN HI) as HC. destruct (line_entry _ _ HN HI) as (B1 & B2 & B3).
    set (l := line_of (gr_name e) h) in *. exists (l :: ls).
    assert (EU : group_line db r1 r2 (h, f) = Some (l ++ [10])).
    { unfold group_line, gid_to_name. cbn [fst snd]. rewrite EP, fits_eq by auto. replace (gr_need e <=? 1024) with true by lia.
      unfold name_fit, zlen, NAME_BUF. destruct HN as (HT & HL & _). apply token_ne in HT. destruct (gr_name e) as [|c n] eqn:EN; [congruence|].
      cbn [length] in *. replace (Z.of_nat (S (length n)) =? 0) with false by lia. replace (Z.of_nat (S (length n)) >=? 256) with false by lia. cbn [orb]. rewrite <- EL. auto. }
    split; [cbn [all_lines map concat]; rewrite EU, E; auto|]. split; [constructor; auto; intros X; rewrite Forall_forall in HC; apply HC in X; lia|].
    split; [cbn [map concat]; apply Forall_app; split; [apply Forall_app; split; [eapply Forall_impl; [|apply HC]; intros c X; cbv beta in *; lia|repeat constructor; lia]|auto]|].
    split.
    { cbn [map concat]. rewrite !app_length. cbn [length] in *. unfold l, line_of. rewrite !app_length. pose proof (plain_len _ _ (plain_print h HI)). destruct HN as (_ & HL & _).
      cbn [length]. lia. }
    intros rest us gs H. cbn [app map]. change (swap (h, f)) with (f, h). eapply li_group; [apply B1|apply B2| |apply B3|apply H4; auto].
    destruct HN as (_ & HL & _). split; [lia|]. destruct HDB as [_ HD]. destruct (HD _ _ EP) as (e' & D1 & D2 & D3). exists e'. split; [auto|]. split; [lia|auto].
Qed.
Lemma title_head : forall s name, title s name -> line_body ([91] ++ name ++ [93]) ([91] ++ name ++ [93]) /\ header ([91] ++ name ++ [93]) s.
Proof.
  intros s name HT. split.
  - exists [], [], []. cbn [app]. rewrite !app_nil_r. split; [auto|]. split; [constructor|]. split; [constructor|]. split; [left; auto|].
    destruct HT as [[_ ->]|[_ ->]]; (split; [cbn [app In]; lia|]; right; unfold space; cbn; lia).
  - exists [91], [], name, [], [93]. cbn [app]. rewrite ?app_nil_r. split; [auto|]. split; [auto|]. split; [auto|].
    split; [repeat constructor|]. split; [constructor; [right; auto|constructor]|]. split; [constructor|]. split; [constructor|auto].
Qed.
Lemma saved_back : forall ids, Forall ok_user (i_users ids) -> Forall ok_group (i_groups ids) ->
  exists b, ids_unparse db r1 r2 ids = Some b /\ (length b <= 300 * length (i_users ids) + 300 * length (i_groups ids) + 20)%nat /\
    (Z.of_nat (length b) < 1048576 -> ids_load db r1 r2 b = Some (mkFsids (map swap (i_users ids)) (map swap (i_groups ids)))).
Proof.
  intros ids HU HG. destruct (user_lines _ HU) as (lu & E1 & U1 & U2 & U3 & U4). destruct (group_lines _ HG) as (lg & F1 & G1 & G2 & G3 & G4).
  unfold ids_unparse. rewrite E1, F1. set (bu := concat (map (fun l => l ++ [10]) lu)) in *. set (bg := concat (map (fun l => l ++ [10]) lg)) in *.
  change (sec_line s_users) with (([91] ++ s_users ++ [93]) ++ [10]). change (sec_line s_groups) with (([91] ++ s_groups ++ [93]) ++ [10]).
  eexists. split; [reflexivity|]. split; [rewrite !app_length; cbn [length s_users s_groups]; lia|]. intros HL. apply ids_read_iff; auto.
  split; [auto|]. set (lu' := ([91] ++ s_users ++ [93]) :: lu ++ [[]]). set (lg' := ([91] ++ s_groups ++ [93]) :: lg ++ [[]]).
  assert (EJ : ((([91] ++ s_users ++ [93]) ++ [10]) ++ bu ++ [10] ++ (([91] ++ s_groups ++ [93]) ++ [10]) ++ bg ++ [10]) = joined ((lu' ++ lg') ++ [[]])).
  { destruct (nl_joined (lu' ++ lg') [[]]) as [H|H]; [|discriminate]. rewrite <- H. unfold lu', lg'. cbn [joined]. rewrite app_nil_r.
    cbn [map concat]. rewrite map_app, concat_app. cbn [map concat]. rewrite !map_app, !concat_app. cbn [map concat]. fold bu. fold bg. rewrite ?app_nil_r, <- !app_assoc. reflexivity. }
  rewrite EJ. assert (HGOOD : good_text (joined ((lu' ++ lg') ++ [[]]))).
  { rewrite <- EJ. unfold good_text. repeat (apply Forall_app; split); auto; unfold s_users, s_groups; repeat constructor; lia. }
  split; [eapply Forall_impl; [|apply HGOOD]; intros c HC; cbv beta in *; lia|].
  exists (joined ((lu' ++ lg') ++ [[]])), [], ((lu' ++ lg') ++ [[]]). split; [rewrite app_nil_r; auto|].
  split; [intros X; unfold good_text in HGOOD; rewrite Forall_forall in HGOOD; apply HGOOD in X; lia|]. split; [auto|]. split; [auto|].
  assert (HNIL : line_body [] []).
  { exists [], [], []. split; [auto|]. split; [constructor|]. split; [constructor|]. split; [left; auto|]. split; [intros []|auto]. }
  split.
  - unfold lu', lg'. repeat (apply Forall_app; split); try (constructor; [|try (apply Forall_app; split)]); auto;
      try (repeat constructor; fail); try (intros X; cbn [app s_users s_groups In] in X; lia); try (constructor; [intros []|constructor]).
  - cbn [i_users i_groups]. unfold lu', lg'. cbn [app]. rewrite <- !app_assoc. cbn [app].
    destruct (title_head SecUsers s_users) as [T1 T2]; [left; auto|]. destruct (title_head SecGroups s_groups) as [T3 T4]; [right; auto|].
    eapply li_head; [exact T1|exact T2|discriminate|]. rewrite <- (app_nil_r (map swap (i_users ids))). rewrite <- ?app_assoc. apply U4. cbn [app].
    apply li_blank; [auto|]. eapply li_head; [exact T3|exact T4|discriminate|]. rewrite <- (app_nil_r (map swap (i_groups ids))). rewrite <- ?app_assoc. apply G4.
    cbn [app]. apply li_blank; [auto|]. apply li_blank; [auto|]. constructor.
Qed.
End Back.

(* A saved map (of known users and groups, of less than 1 MiB) can be loaded; the map loaded
   has host and file system ids exchanged *)
Theorem ids_saved : forall db r1 r2 ids, 0 <= r1 -> 0 <= r2 -> sound_db db ->
  (forall h f, In (h, f) (i_users ids) -> known_user db h /\ 0 <= f < 1073741824) ->
  (forall h f, In (h, f) (i_groups ids) -> known_group db f /\ 0 <= h < 1073741824) ->
  exists b, ids_unparse db r1 r2 ids = Some b /\
    (Z.of_nat (length b) < 1048576 ->
     ids_load db r1 r2 b = Some (mkFsids (map swap (i_users ids)) (map swap (i_groups ids)))).
Proof.
  intros db r1 r2 ids H1 H2 HD HU HG. destruct (saved_back db r1 r2 H1 H2 HD ids) as (b & A & _ & B).
  - apply Forall_forall. intros [h f] HI. apply HU in HI. exact HI.
  - apply Forall_forall. intros [h f] HI. apply HG in HI. exact HI.
  - exists b. auto.
Qed.
Print Assumptions ids_saved.
Example ids_saved_ex : match ids_unparse toy_db 1024 1024 (mkFsids [(1000, 5); (0, 0)] [(5, 1000); (0, 0)]) with
  | Some b => ids_load toy_db 1024 1024 b
  | None => None
  end = Some (mkFsids [(5, 1000); (0, 0)] [(1000, 5); (0, 0)]).
Proof. vm_compute. reflexivity. Qed.

(* ---- init ---- *)
Definition own (e : Z * Z) : Prop := fst e = snd e.
Lemma own_swap : forall es, Forall own es -> map swap es = es.
Proof.
  induction es as [|[h f] es IH]; intros H; [auto|]. inversion H as [|x l HE HF EX]; subst. unfold own in HE. cbn [fst snd] in HE. subst f.
  cbn [map]. rewrite IH by auto. reflexivity.
Qed.
Section Init.
Variables (db : userdb) (r1 r2 : Z).
Hypotheses (HR1 : 0 <= r1) (HR2 : 0 <= r2).
Definition mine (ids : fsids) : Prop :=
  Forall (fun e => own e /\ ok_user db e) (i_users ids) /\ Forall (fun e => own e /\ ok_group db e) (i_groups ids).
Lemma supgr_mine : forall gs es, (forall g, In g gs -> g <> 4294967295 -> known_group db g /\ 0 <= g < 1073741824) ->
  Forall (fun e => own e /\ ok_group db e) es ->
  Forall (fun e => own e /\ ok_group db e) (add_supgr gs es) /\ (length (add_supgr gs es) <= length gs + length es)%nat /\ incl es (add_supgr gs es).
Proof.
  induction gs as [|g gs IH]; intros es HG HE; cbn [add_supgr].
  - split; [auto|]. split; [lia|apply incl_refl].
  - destruct ((g =? NOID) || has_host es g) eqn:E.
    + destruct (IH es) as (A & B & C); [intros; apply HG; [right|]; auto|auto|]. split; [auto|]. split; [cbn [length]; lia|auto].
    + apply orb_false_iff in E. destruct E as [E _]. unfold NOID in E. destruct (HG g) as [K1 K2]; [left; auto|lia|].
      destruct (IH (es ++ [(g, g)])) as (A & B & C); [intros; apply HG; [right|]; auto| |].
      * apply Forall_app. split; [auto|]. constructor; [|constructor]. split; [reflexivity|]. split; cbn [fst snd]; auto.
      * split; [auto|]. split; [rewrite app_length in B; cbn [length] in *; lia|]. intros x HX. apply C. apply in_or_app. auto.
Qed.
Lemma add_mine : forall ids user sup ids', well_known db user -> mine ids -> add_user db r1 r2 ids user sup = Some ids' ->
  mine ids' /\ (length (i_users ids') = S (length (i_users ids)))%nat /\ (length (i_groups ids') <= length (i_groups ids) + 65)%nat /\
  incl (i_users ids) (i_users ids') /\ incl (i_groups ids) (i_groups ids') /\
  exists e, pwnam db user = Some e /\ pw_need e <= 1024 /\ In (pw_uid e, pw_uid e) (i_users ids') /\ In (pw_gid e, pw_gid e) (i_groups ids').
Proof.
  intros ids user sup ids' [W1 W2] [M1 M2]. unfold add_user, resolve_uidgid. destruct (pwnam db user) as [e|] eqn:EP; [|discriminate]. rewrite fits_eq by auto.
  destruct (pw_need e <=? 1024) eqn:EN; [|discriminate]. cbv zeta. destruct (W1 e eq_refl) as (K1 & K2 & K3 & K4).
  assert (MU : Forall (fun e => own e /\ ok_user db e) (i_users ids ++ [(pw_uid e, pw_uid e)])).
  { apply Forall_app. split; [auto|]. constructor; [|constructor]. split; [reflexivity|]. split; cbn [fst snd]; auto. }
  assert (MG : Forall (fun e => own e /\ ok_group db e) (i_groups ids ++ [(pw_gid e, pw_gid e)])).
  { apply Forall_app. split; [auto|]. constructor; [|constructor]. split; [reflexivity|]. split; cbn [fst snd]; auto. }
  assert (IU : In (pw_uid e, pw_uid e) (i_users ids ++ [(pw_uid e, pw_uid e)])) by (apply in_or_app; right; left; auto).
  assert (IG : In (pw_gid e, pw_gid e) (i_groups ids ++ [(pw_gid e, pw_gid e)])) by (apply in_or_app; right; left; auto).
  destruct sup.
  - destruct (Z.of_nat (length (grlist db user)) >? 64) eqn:EG; [discriminate|]. intros H. injection H as <-. cbn [i_users i_groups].
    destruct (supgr_mine (grlist db user) _ W2 MG) as (A & B & C). split; [split; auto|]. rewrite !app_length in *. cbn [length] in *.
    split; [lia|]. split; [lia|]. split; [apply incl_appl, incl_refl|]. split; [intros x HX; apply C; apply in_or_app; auto|].
    exists e. split; [auto|]. split; [lia|]. split; auto.
  - intros H. injection H as <-. cbn [i_users i_groups]. split; [split; auto|]. rewrite !app_length. cbn [length].
    split; [lia|]. split; [lia|]. split; [apply incl_appl, incl_refl|]. split; [apply incl_appl, incl_refl|].
    exists e. split; [auto|]. split; [lia|]. split; auto.
Qed.
Lemma init_mine : forall user sup root ids, well_known db user -> (forall e, pwuid db 0 = Some e -> well_known db (pw_name e)) ->
  init_ids db r1 r2 user sup root = Some ids -> mine ids /\ (length (i_users ids) <= 2)%nat /\ (length (i_groups ids) <= 130)%nat /\
  exists e, pwnam db user = Some e /\ pw_need e <= 1024 /\ In (pw_uid e, pw_uid e) (i_users ids) /\ In (pw_gid e, pw_gid e) (i_groups ids).
Proof.
  intros user sup root ids WU WR. unfold init_ids. destruct (uid_to_name db r1 r2 0 (NAME_BUF - 1)) as [rn|] eqn:ER; [|discriminate].
  assert (WN : well_known db rn).
  { unfold uid_to_name in ER. destruct (pwuid db 0) as [e|]; [|discriminate]. destruct (fits r1 r2 (pw_need e)); [|discriminate].
    unfold name_fit in ER. destruct ((zlen (pw_name e) =? 0) || (zlen (pw_name e) >=? NAME_BUF - 1)); [discriminate|]. injection ER as <-. apply WR. auto. }
  destruct (add_user db r1 r2 NO_IDS user sup) as [i1|] eqn:E1; [|discriminate].
  apply add_mine in E1; auto; [|split; constructor]. destruct E1 as (A1 & A2 & A3 & A4 & A5 & e & A6 & A7 & A8 & A9). cbn [NO_IDS i_users i_groups length] in *.
  destruct (root && negb (same_bytes rn user)).
  - intros E2. apply add_mine in E2; auto. destruct E2 as (B1 & B2 & B3 & B4 & B5 & _). split; [auto|]. split; [lia|]. split; [lia|]. exists e. auto 10.
  - intros H. injection H as <-. split; [auto|]. split; [lia|]. split; [lia|]. exists e. auto.
Qed.
End Init.
Lemma own_one : forall es, Forall own es -> one_to_one es.
Proof.
  intros es H. rewrite Forall_forall in H. split; intros a b c H1 H2; apply H in H1; apply H in H2; unfold own in *; cbn [fst snd] in *; congruence.
Qed.

(* The file that init writes for a well-known user can be loaded by every later command.  It
   gives back the same ids; mkfs takes the user for one of them; and every user and group in
   the file is mapped to their own id *)
Theorem init_loads : forall db r1 r2 user sup root ids, 0 <= r1 -> 0 <= r2 -> sound_db db ->
  well_known db user -> (forall e, pwuid db 0 = Some e -> well_known db (pw_name e)) ->
  init_ids db r1 r2 user sup root = Some ids ->
  (exists b, ids_unparse db r1 r2 ids = Some b /\ ids_load db r1 r2 b = Some ids) /\
  (exists e, pwnam db user = Some e /\ require_uidgid db r1 r2 ids user = Some (pw_uid e, pw_gid e)) /\
  (forall cap allow u fu g fg, In (u, fu) (i_users ids) -> In (g, fg) (i_groups ids) ->
     map_uidgid (idsmap_load cap (i_users ids) (i_groups ids) allow) u g = Some (u, g) /\
     rmap_uidgid (idsmap_load cap (i_users ids) (i_groups ids) allow) u g = Some (u, g)).
Proof.
  intros db r1 r2 user sup root ids H1 H2 HD WU WR HI. apply init_mine in HI; auto. destruct HI as ([MU MG] & L1 & L2 & e & E1 & E2 & E3 & E4).
  assert (OU : Forall own (i_users ids)) by (eapply Forall_impl; [|apply MU]; intros x [X _]; auto).
  assert (OG : Forall own (i_groups ids)) by (eapply Forall_impl; [|apply MG]; intros x [X _]; auto).
  split; [|split].
  - destruct (saved_back db r1 r2 H1 H2 HD ids) as (b & A & B & C).
    + eapply Forall_impl; [|apply MU]; intros x [_ X]; auto.
    + eapply Forall_impl; [|apply MG]; intros x [_ X]; auto.
    + exists b. split; [auto|]. rewrite C by lia. rewrite !own_swap by auto. destruct ids; auto.
  - exists e. split; [auto|]. unfold require_uidgid, resolve_uidgid. rewrite E1, fits_eq by auto. replace (pw_need e <=? 1024) with true by lia.
    assert (HH : forall es x, In (x, x) es -> has_host es x = true) by (intros es x HX; apply existsb_exists; exists (x, x); split; [auto|cbn [fst]; lia]).
    rewrite !HH by auto. reflexivity.
  - intros cap allow u fu g fg IU IG. rewrite Forall_forall in MU, MG. pose proof (MU _ IU) as [O1 [_ K1]]. pose proof (MG _ IG) as [O2 [_ K2]]. unfold own in *. cbn [fst snd] in *. subst fu fg.
    apply C05_roundtrip; auto; try (apply own_one; auto).
    + intros h f HX. apply MU in HX. destruct HX as [X1 [_ X2]]. unfold own in X1. cbn [fst snd] in *. lia.
    + intros h f HX. apply MG in HX. destruct HX as [X1 [_ X2]]. unfold own in X1. cbn [fst snd] in *. lia.
Qed.
Print Assumptions init_loads.
Example init_loads_ex : init_ids toy_db 1024 1024 n_joe true true = Some (mkFsids [(1000, 1000); (0, 0)] [(1000, 1000); (0, 0)]) /\
  (* "[users]\njoe = 1000\nroot = 0\n\n[groups]\njoe = 1000\nroot = 0\n\n" *)
  ids_unparse toy_db 1024 1024 (mkFsids [(1000, 1000); (0, 0)] [(1000, 1000); (0, 0)]) = Some
    [91; 117; 115; 101; 114; 115; 93; 10; 106; 111; 101; 32; 61; 32; 49; 48; 48; 48; 10; 114; 111; 111; 116; 32; 61; 32; 48; 10; 10;
     91; 103; 114; 111; 117; 112; 115; 93; 10; 106; 111; 101; 32; 61; 32; 49; 48; 48; 48; 10; 114; 111; 111; 116; 32; 61; 32; 48; 10; 10].
Proof. vm_compute. auto. Qed.
Example init_known_ex : sound_db toy_db /\ well_known toy_db n_joe /\ forall e, pwuid toy_db 0 = Some e -> well_known toy_db (pw_name e).
Proof.
  assert (PJ : plain_name n_joe) by (split; [split; unfold space; cbn; lia|]; split; [cbn; lia|repeat constructor; lia]).
  assert (PR : plain_name n_root) by (split; [split; unfold space; cbn; lia|]; split; [cbn; lia|repeat constructor; lia]).
  assert (KJ : known_user toy_db 1000) by (exists (mkPw n_joe 1000 1000 60); split; [reflexivity|]; split; [auto|cbn [pw_need]; lia]).
  assert (KR : known_user toy_db 0) by (exists (mkPw n_root 0 0 60); split; [reflexivity|]; split; [auto|cbn [pw_need]; lia]).
  assert (GJ : known_group toy_db 1000) by (exists (mkGr n_joe 1000 20); split; [reflexivity|]; split; [auto|cbn [gr_need]; lia]).
  assert (GR : known_group toy_db 0) by (exists (mkGr n_root 0 20); split; [reflexivity|]; split; [auto|cbn [gr_need]; lia]).
  assert (GL : forall g, In g [1000] -> g <> 4294967295 -> known_group toy_db g /\ 0 <= g < 1073741824) by (intros g [<- |[]] _; split; [auto|lia]).
  split; [split|split].
  - intros u e H. apply find_some in H. destruct H as [HI HE]. assert (pw_uid e = u) by lia. subst u.
    destruct HI as [<- |[<- |[<- |[]]]]; eexists; (split; [reflexivity|auto]).
  - intros g e H. apply find_some in H. destruct H as [HI HE]. assert (gr_gid e = g) by lia. subst g.
    destruct HI as [<- |[<- |[<- |[]]]]; eexists; (split; [reflexivity|auto]).
  - split; [|exact GL]. intros e H. change (pwnam toy_db n_joe) with (Some (mkPw n_joe 1000 1000 60)) in H. injection H as <-. cbn [pw_uid pw_gid]. split; [auto|]. split; [auto|lia].
  - intros e H. change (pwuid toy_db 0) with (Some (mkPw n_root 0 0 60)) in H. injection H as <-. split; [|exact GL]. intros e H. cbn [pw_name] in H.
    change (pwnam toy_db n_root) with (Some (mkPw n_root 0 0 60)) in H. injection H as <-. cbn [pw_uid pw_gid]. split; [auto|]. split; [auto|lia].
Qed.

(* ---- where the file falls short ---- *)
(* "[users]\njoe = 5\n[groups]\njoe = 5\n".  The name of a user stands for the file system's
   id, that of a group for the host's: the user joe of this host, in the group joe, is not
   allowed in *)
Definition two_ways : bytes :=
  [91; 117; 115; 101; 114; 115; 93; 10; 106; 111; 101; 32; 61; 32; 53; 10;
   91; 103; 114; 111; 117; 112; 115; 93; 10; 106; 111; 101; 32; 61; 32; 53; 10].
Theorem ids_two_ways_refuted : exists db b name,
  (exists e g, pwnam db name = Some e /\ grnam db name = Some g /\ gr_gid g = pw_gid e /\
   ids_load db 1024 1024 b = Some (mkFsids [(5, pw_uid e)] [(gr_gid g, 5)]) /\
   map_uidgid (idsmap_load 509 [(5, pw_uid e)] [(gr_gid g, 5)] false) (pw_uid e) (gr_gid g) = None).
Proof.
  exists toy_db, two_ways, n_joe, (mkPw n_joe 1000 1000 60), (mkGr n_joe 1000 20). vm_compute. auto 10.
Qed.
Print Assumptions ids_two_ways_refuted.

(* A map that is saved and loaded is not the same map: host user 1000 had been user 5 of the
   file system, and then host user 5 is user 1000 of it *)
Theorem ids_saved_same_refuted : exists db ids ids' b, sound_db db /\
  ids_unparse db 1024 1024 ids = Some b /\ ids_load db 1024 1024 b = Some ids' /\ ids' <> ids /\
  map_uidgid (idsmap_load 509 (i_users ids) (i_groups ids) false) 1000 5 = Some (5, 1000) /\
  map_uidgid (idsmap_load 509 (i_users ids') (i_groups ids') false) 1000 5 = None.
Proof.
  exists toy_db, (mkFsids [(1000, 5)] [(5, 1000)]), (mkFsids [(5, 1000)] [(1000, 5)]).
  eexists. split; [apply init_known_ex|]. split; [vm_compute; reflexivity|]. split; [vm_compute; reflexivity|].
  split; [discriminate|]. split; vm_compute; reflexivity.
Qed.
Print Assumptions ids_saved_same_refuted.

(* "[users]\namy = 2000000000\nroot = 0\n\n[groups]\njoe = 1000\nroot = 0\n\n" *)
Definition amy_text : bytes :=
  [91; 117; 115; 101; 114; 115; 93; 10; 97; 109; 121; 32; 61; 32; 50; 48; 48; 48; 48; 48; 48; 48; 48; 48; 10; 114; 111; 111; 116; 32; 61; 32; 48; 10; 10; 91; 103; 114; 111; 117; 112; 115; 93; 10; 106; 111; 101; 32; 61; 32; 49; 48; 48; 48; 10; 114; 111; 111; 116; 32; 61; 32; 48; 10; 10].
(* init for a user whose number is 2000000000 writes a file that no command can load *)
Theorem init_large_refuted : exists db user ids b, sound_db db /\
  init_ids db 1024 1024 user true true = Some ids /\ ids_unparse db 1024 1024 ids = Some b /\
  ids_load db 1024 1024 b = None.
Proof.
  exists toy_db, n_amy, (mkFsids [(2000000000, 2000000000); (0, 0)] [(1000, 1000); (0, 0)]), amy_text.
  split; [apply init_known_ex|]. vm_compute. auto.
Qed.
Print Assumptions init_large_refuted.

(* "[users]\njoe = 5\njoe = 6\n": two users of the host are one user of the file system, and
   the files of one show as those of the other *)
Definition two_joes : bytes :=
  [91; 117; 115; 101; 114; 115; 93; 10; 106; 111; 101; 32; 61; 32; 53; 10; 106; 111; 101; 32; 61; 32; 54; 10].
Theorem ids_distinct_refuted : exists db b ids, ids_load db 1024 1024 b = Some ids /\ ~ one_to_one (i_users ids) /\
  let m := idsmap_load 509 (i_users ids) [(0, 0)] false in
  map_uidgid m 5 0 = Some (1000, 0) /\ map_uidgid m 6 0 = Some (1000, 0) /\ rmap_uidgid m 1000 0 = Some (6, 0).
Proof.
  exists toy_db, two_joes, (mkFsids [(5, 1000); (6, 1000)] []). split; [vm_compute; reflexivity|].
  split; [|vm_compute; auto]. intros [_ H]. specialize (H 5 6 1000). cbn [i_users In] in H. assert (5 = 6) by auto. discriminate.
Qed.
Print Assumptions ids_distinct_refuted.

(* "[user]\njoe = 5\n": a misspelt header makes the file say nothing *)
Definition misspelt : bytes := [91; 117; 115; 101; 114; 93; 10; 106; 111; 101; 32; 61; 32; 53; 10].
Theorem ids_misspelt_refuted : exists db b, ids_load db 1024 1024 b = Some NO_IDS /\ cstr b = b /\ In 61 b.
Proof. exists toy_db, misspelt. vm_compute. auto 20. Qed.
Print Assumptions ids_misspelt_refuted.

(* A name whose entry takes more than 1024 bytes is refused, whatever sysconf says of the
   buffer that entries need *)
Theorem ids_long_entry : forall db r1 r2 name, (forall e, grnam db name = Some e -> 1024 < gr_need e) ->
  gid_by_name db r1 r2 name = None.
Proof.
  intros db r1 r2 name H. unfold gid_by_name. destruct (grnam db name) as [e|]; [|auto]. specialize (H e eq_refl).
  unfold fits, getxx_bsz, cmd_sysconf. destruct (r1 <? 0); [auto|]. destruct (r2 <? 0); [auto|].
  change ((if SC_GETPW >? SC_GETGR then SC_GETPW else SC_GETGR) + 1024 - 1) with 1093. change (1093 / 1024 * 1024) with 1024.
  replace (gr_need e <=? 1024) with false by lia. auto.
Qed.
Print Assumptions ids_long_entry.
(* "[groups]\nhuge = 7\n" *)
Definition huge_text : bytes := [91; 103; 114; 111; 117; 112; 115; 93; 10; 104; 117; 103; 101; 32; 61; 32; 55; 10].
Theorem ids_long_entry_refuted : exists db b name e, grnam db name = Some e /\ sound_db db /\
  forall r1 r2, gr_need e <= r1 -> gr_need e <= r2 -> ids_load db r1 r2 b = None.
Proof.
  exists toy_db, huge_text, n_huge, (mkGr n_huge 7 2000). split; [reflexivity|]. split; [apply init_known_ex|]. cbn [gr_need]. intros r1 r2 H1 H2.
  destruct (ids_load toy_db r1 r2 huge_text) as [ids|] eqn:E; [|auto]. exfalso.
  apply ids_read_iff in E; [|lia|lia]. apply (ids_read_iff toy_db 1024 1024) in E; [|lia|lia]. vm_compute in E. discriminate.
Qed.
Print Assumptions ids_long_entry_refuted.
