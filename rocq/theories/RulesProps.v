(* C56: the rules of the mount daemon are those its file says. *)
From Verif Require Import Base AddrModel MntModel MntSpec MntProofs MntToy MntProps MntUmount.
From Verif Require Import RulesModel RulesSpec RulesProofs.

(* a text before its first NUL *)
Definition text_of (b text : bytes) : Prop :=
  exists rest, b = text ++ rest /\ ~ In 0 text /\ (rest = [] \/ exists r, rest = 0 :: r).
Definition regular (mode : Z) : Prop := (mode / 4096) mod 16 = 8.

Lemma cstr_text : forall b, text_of b (cstr b).
Proof.
  induction b as [|x b [rest [E [H1 H2]]]].
  - exists []. split; [auto|]. split; [intros []|auto].
  - cbn [cstr]. destruct (x =? 0) eqn:EX.
    + exists (x :: b). split; [auto|]. split; [intros []|]. right. exists b. f_equal. lia.
    + exists rest. split; [cbn [app]; congruence|]. split; [|auto]. intros [X|X]; [lia|contradiction].
Qed.
Lemma text_cstr : forall b text, text_of b text -> cstr b = text.
Proof.
  intros b text [rest [-> [H1 H2]]]. induction text as [|x t IH].
  - destruct H2 as [->|[r ->]]; reflexivity.
  - cbn [app cstr]. destruct (x =? 0) eqn:E; [exfalso; apply H1; left; lia|]. rewrite IH; [auto|]. intros X. apply H1. right. auto.
Qed.
Lemma is_reg_iff : forall mode, is_reg mode = true <-> regular mode.
Proof.
  intros mode. unfold is_reg, regular. rewrite Z.eqb_eq.
  replace (Z.land mode 61440) with (((mode / 4096) mod 16) * 4096); [lia|].
  change 61440 with (Z.shiftl (Z.ones 4) 12). change 4096 with (2 ^ 12). change 16 with (2 ^ 4).
  rewrite <- Z.shiftr_div_pow2 by lia. rewrite <- Z.land_ones by lia. rewrite <- Z.shiftl_mul_pow2 by lia.
  apply Z.bits_inj'. intros n Hn. rewrite Z.land_spec.
  destruct (Z.lt_ge_cases n 12).
  - rewrite !Z.shiftl_spec_low by lia. rewrite andb_false_r. reflexivity.
  - rewrite !Z.shiftl_spec by lia. rewrite Z.land_spec, Z.shiftr_spec by lia. replace (n - 12 + 12) with n by lia. reflexivity.
Qed.

Lemma text_small : forall b text, text_of b text -> zlen b <= 2 ^ 20 -> small_text text.
Proof. intros b text [rest [-> _]] H. rewrite zlen_app in H. pose proof (zlen_nn rest). unfold small_text, NPOS. lia. Qed.

(* The daemon starts with these rules if and only if the file (a regular one of up to 1 MiB,
   read whole) says them: one rule for every line with words before its comment, in the order
   of the lines, and no line says anything else *)
Theorem rules_loaded : forall realpath f rs, load_rules realpath (Some f) = Some rs <->
  regular (c_mode f) /\ c_size f <= 1048576 /\
  exists b text, c_read f = Some b /\ Z.of_nat (length b) = c_size f /\ text_of b text /\ text_says realpath text rs.
Proof.
  intros rp f rs. cbn [load_rules]. split.
  - destruct (is_reg (c_mode f)) eqn:E1; cbn [negb]; [|discriminate]. apply is_reg_iff in E1.
    destruct (c_size f >? 2 ^ 20) eqn:E2; [discriminate|]. destruct (c_read f) as [b|]; [|discriminate].
    destruct (zlen b =? c_size f) eqn:E3; [|discriminate]. intros H. split; [auto|]. split; [lia|].
    exists b, (cstr b). split; [auto|]. split; [unfold zlen in E3; lia|]. split; [apply cstr_text|].
    apply parse_rules_iff; [|auto]. eapply text_small; [apply cstr_text|]. lia.
  - intros (H1 & H2 & b & text & H3 & H4 & H5 & H6). apply is_reg_iff in H1. rewrite H1. cbn [negb].
    replace (c_size f >? 2 ^ 20) with false by lia. rewrite H3. unfold zlen. replace (Z.of_nat (length b) =? c_size f) with true by lia.
    rewrite (text_cstr _ _ H5). apply parse_rules_iff; [|auto]. eapply text_small; [apply H5|]. unfold zlen. lia.
Qed.
Print Assumptions rules_loaded.

(* "# mine\n/m/a uid=1000 recursive=1 # note\r\n\n \t\n/m/aa\n" *)
Definition z_text : bytes :=
  [35; 32; 109; 105; 110; 101; 10] ++
  y_a ++ [32; 117; 105; 100; 61; 49; 48; 48; 48; 9; 32; 114; 101; 99; 117; 114; 115; 105; 118; 101; 61; 49;
          32; 35; 32; 110; 111; 116; 101; 13; 10; 10; 32; 9; 10] ++ y_aa ++ [10].
Definition z_file (b : bytes) : cfile := mkCfile 33188 (Z.of_nat (length b)) (Some b).
Definition z_rp (p : bytes) : option bytes := None.
Example rules_loaded_ex :
  load_rules z_rp (Some (z_file z_text)) = Some [mkRule y_a 1000 true; mkRule y_aa 4294967295 false] /\
  load_rules z_rp (Some (z_file (z_text ++ [117; 105; 100]))) = Some [mkRule y_a 1000 true; mkRule y_aa 4294967295 false; mkRule [117; 105; 100] 4294967295 false] /\
  (* an unknown key, no value, too large *)
  map (fun v => load_rules z_rp (Some (z_file (y_a ++ 32 :: v))))
    [[103; 105; 100; 61; 49]; [117; 105; 100; 61]; [117; 105; 100; 61; 49; 48; 55; 51; 55; 52; 49; 56; 50; 52]] = [None; None; None].
Proof. vm_compute. split; [reflexivity|]. split; reflexivity. Qed.

(* ---- the form that mountd.conf documents ---- *)
Lemma run_grow : forall a s v, run 10 a s v -> 0 <= a -> a * 10 ^ zlen s <= v.
Proof.
  intros a s v H. induction H as [a|a c d s v HD HR IH]; intros HA; [unfold zlen; cbn [length]; change (10 ^ Z.of_nat 0) with 1; lia|].
  unfold digit in HD. replace (zlen (c :: s)) with (1 + zlen s) by (unfold zlen; cbn [length]; lia).
  pose proof (zlen_nn s). rewrite Z.pow_add_r by lia. change (10 ^ 1) with 10.
  assert (0 < 10 ^ zlen s) by (apply Z.pow_pos_nonneg; lia). specialize (IH ltac:(lia)). nia.
Qed.
Lemma plain_len : forall v u, plain v u -> (length v <= 10)%nat.
Proof.
  intros v u [HN [[HH | ->] HU]]; [|cbn [length]; lia]. apply numeral_run in HN. destruct HN as [H1 HR].
  destruct v as [|c v]; [congruence|]. cbn [hd] in HH. apply run_inv in HR. destruct HR as [d [HD HR]].
  apply run_grow in HR; unfold digit in HD; [|lia]. assert (1 <= d) by lia.
  destruct (le_lt_dec (length (c :: v)) 10); [auto|exfalso]. cbn [length] in *.
  assert (10 ^ 10 <= 10 ^ zlen v) by (apply Z.pow_le_mono_r; unfold zlen; lia). change (10 ^ 10) with 10000000000 in *. nia.
Qed.
Lemma plain_digits : forall v u, numeral 10 v u -> Forall (fun c => 48 <= c <= 57) v.
Proof.
  intros v u H. induction H as [c d HD|s v c d HN IH HD]; unfold digit in HD.
  - constructor; [lia|constructor].
  - apply Forall_app. split; [auto|]. constructor; [lia|constructor].
Qed.
Lemma plain_value : forall v u, plain v u -> uid_value v u.
Proof.
  intros v u HP. pose proof (plain_len _ _ HP) as HL. destruct HP as [HN [HH HU]]. exists [], [], v, u, [].
  assert (0 <= u) by (eapply numeral_nn; eauto; lia).
  split; [auto|]. split; [lia|]. split; [constructor|]. split; [|split; [cbn [length]; lia|split; [lia|auto]]].
  rewrite <- (app_nil_r v) at 1. assert (HG : forall b, ~ goes_on b []) by (intros b (? & ? & ? & ? & ?); discriminate).
  destruct HH as [HH| ->].
  - apply number_dec; auto.
  - apply number_oct; [|reflexivity|auto|intros; discriminate]. apply numeral_run in HN. destruct HN as [_ HN].
    apply run_inv in HN. destruct HN as [d [HD HN]]. apply run_inv0 in HN. unfold digit in HD. replace u with 0 by lia.
    constructor. unfold digit. lia.
Qed.

Lemma simple_nb : forall p, simple_path p -> p <> [] /\ NB p /\ ~ In 35 p /\ ~ space (hd 32 p) /\ ~ space (last p 32) /\ ~ In 10 p.
Proof.
  intros p [H1 H2]. pose proof H2 as H3. rewrite Forall_forall in H3. split; [auto|].
  split; [eapply Forall_impl; [|apply H2]; intros c [H _] HB; apply H, blank_space, HB|].
  split; [intros X; apply H3 in X; lia|].
  split; [destruct p as [|c p]; [congruence|]; cbn [hd]; apply (H3 c); left; auto|].
  split; [destruct (exists_last H1) as [a [x ->]]; rewrite last_last; apply (H3 x); apply in_or_app; right; left; auto|].
  intros X. apply H3 in X. destruct X as [X _]. apply X. left. lia.
Qed.

Lemma entry_rule : forall rp path who line, simple_path path -> entry_line path who line ->
  exists ru, line_rule rp line ru /\ leads rp path (ru_path ru) /\
    ru_uid ru = match who with None => 4294967295 | Some u => u end /\ ~ In 10 line.
Proof.
  intros rp path who line HP HE. destruct (simple_nb _ HP) as (H1 & H2 & H3 & H4 & H5 & H6).
  destruct who as [u|]; cbn [entry_line] in HE.
  - destruct HE as [v [HV ->]]. pose proof (plain_value _ _ HV) as HUV. pose proof (uid_some _ _ HUV) as HVN.
    destruct HV as [HN _]. apply plain_digits in HN. pose proof HN as HD. rewrite Forall_forall in HD.
    set (w := [117; 105; 100; 61] ++ v). exists (mkRule (realpath_of rp path) u false). cbn [ru_path ru_uid].
    split; [|split; [apply leads_iff; auto|split; [auto|]]].
    + constructor. exists path, [w], [SUid u]. split; [|split; [|split; [apply leads_iff; auto|split]]].
      * constructor. exists [], (path ++ [32] ++ w), [], []. split; [rewrite app_nil_r; reflexivity|]. split; [constructor|].
        split; [constructor|]. split; [left; auto|]. split; [|split; [|split]].
        -- intros X. apply in_app_or in X. destruct X as [X|X]; [contradiction|]. unfold w in X. cbn [app In] in X.
           destruct X as [X|[X|[X|[X|[X|X]]]]]; try lia. apply HD in X. lia.
        -- destruct path; [congruence|]. exact H4.
        -- destruct (exists_last HVN) as [a [x Ex]]. unfold w. rewrite Ex.
           replace (path ++ [32] ++ [117; 105; 100; 61] ++ a ++ [x]) with ((path ++ [32] ++ [117; 105; 100; 61] ++ a) ++ [x])
             by (rewrite <- !app_assoc; reflexivity).
           rewrite last_last. assert (48 <= x <= 57) by (apply HD; rewrite Ex; apply in_or_app; right; left; auto). unfold space. lia.
        -- constructor; [auto|auto|discriminate|constructor; [left; auto|constructor]|].
           constructor; [discriminate|]. apply Forall_forall. intros c X. unfold w in X. cbn [app In] in X. unfold blank.
           destruct X as [X|[X|[X|[X|X]]]]; try apply HD in X; lia.
      * constructor; [|constructor]. apply sets_uid. auto.
      * right. exists [], []. split; [auto|]. intros x [].
      * left. split; [|auto]. intros x [X|[]]. discriminate.
    + intros X. apply in_app_or in X. destruct X as [X|X]; [contradiction|]. cbn [app In] in X.
      destruct X as [X|[X|[X|[X|[X|X]]]]]; try lia. apply HD in X. lia.
  - subst line. exists (mkRule (realpath_of rp path) 4294967295 false). cbn [ru_path ru_uid].
    split; [|split; [apply leads_iff; auto|auto]]. constructor. exists path, [], [].
    split; [|split; [constructor|split; [apply leads_iff; auto|split]]].
    + constructor. exists [], path, [], []. rewrite !app_nil_r. split; [auto|]. split; [constructor|]. split; [constructor|].
      split; [left; auto|]. split; [auto|]. split; [auto|]. split; [auto|]. constructor; auto.
    + left. split; [|auto]. intros x [].
    + left. split; [|auto]. intros x [].
Qed.

(* entries in the documented form, with blank lines and comments among them *)
Inductive conf_lines : list (bytes * option Z) -> list bytes -> Prop :=
| conf_none : conf_lines [] []
| conf_blank l es ls : blank_line l -> ~ In 10 l -> conf_lines es ls -> conf_lines es (l :: ls)
| conf_entry p who l es ls : simple_path p -> entry_line p who l -> conf_lines es ls -> conf_lines ((p, who) :: es) (l :: ls).

(* A file in the documented form gives, in order, a rule for all users for every "path", and a
   rule for that user for every "path uid=UID" *)
Theorem rules_documented : forall realpath es ls, conf_lines es ls -> (length es <= 1024)%nat ->
  Z.of_nat (length (joined ls)) <= 1048576 ->
  exists rs, parse_rules realpath (joined ls) = Some rs /\
    Forall2 (fun e ru => leads realpath (fst e) (ru_path ru) /\
      ru_uid ru = match snd e with None => 4294967295 | Some u => u end) es rs.
Proof.
  intros rp es ls HC HM HL.
  assert (HG : exists rs, lines_say rp ls rs /\ Forall (fun l => ~ In 10 l) ls /\
    Forall2 (fun e ru => leads rp (fst e) (ru_path ru) /\ ru_uid ru = match snd e with None => 4294967295 | Some u => u end) es rs).
  { clear HM HL. induction HC as [|l es ls HB HN HC [rs [H1 [H2 H3]]]|p who l es ls HP HE HC [rs [H1 [H2 H3]]]].
    - exists []. split; [constructor|]. split; constructor.
    - exists rs. split; [apply say_blank; auto|]. split; [constructor; auto|auto].
    - destruct (entry_rule rp p who l HP HE) as [ru [HR [HQ [HU HN]]]]. exists (ru :: rs).
      split; [apply say_rule; auto|]. split; [constructor; auto|]. constructor; auto. }
  destruct HG as [rs [H1 [H2 H3]]]. exists rs. split; [|auto]. apply parse_rules_iff; [unfold small_text, NPOS, zlen; lia|].
  exists ls. split; [auto|]. split; [auto|]. split; [auto|]. apply Forall2_length in H3. lia.
Qed.
Print Assumptions rules_documented.

Example rules_documented_ex :
  conf_lines [(y_a, Some 1000); (y_aa, None)] [[35; 32; 120]; y_a ++ 32 :: [117; 105; 100; 61] ++ [49; 48; 48; 48]; []; y_aa; []].
Proof.
  assert (HS : forall p, forallb (fun c => 35 <? c) p = true -> p <> [] -> simple_path p).
  { intros p H HN. split; [auto|]. apply Forall_forall. intros c HI. rewrite forallb_forall in H. apply H in HI. unfold space. lia. }
  apply conf_blank; [exists [], [35; 32; 120]; split; [auto|]; split; [constructor|right; eauto]|cbn [In]; lia|].
  apply conf_entry; [apply HS; [reflexivity|discriminate]| |].
  { exists [49; 48; 48; 48]. split; [|reflexivity]. split; [|split; [left; cbn [hd]; lia|lia]].
    replace 1000 with (((1 * 10 + 0) * 10 + 0) * 10 + 0) by lia.
    change [49; 48; 48; 48] with ((([49] ++ [48]) ++ [48]) ++ [48]).
    repeat (first [apply numeral_one|apply numeral_more]); unfold digit; lia. }
  assert (HB : blank_line []) by (exists [], []; split; [auto|]; split; [constructor|left; auto]).
  apply conf_blank; [auto|intros []|]. apply conf_entry; [apply HS; [reflexivity|discriminate]|reflexivity|].
  apply conf_blank; [auto|intros []|constructor].
Qed.

(* ---- from the line of the file to the mount ---- *)
Lemma say_in : forall rp ls rs ru, lines_say rp ls rs -> In ru rs -> exists l, In l ls /\ line_rule rp l ru.
Proof.
  intros rp ls rs ru H. induction H as [|l ls rs HB H IH|l ls r rs HR H IH]; intros HI; [destruct HI| |].
  - destruct (IH HI) as [x [H1 H2]]. exists x. split; [right; auto|auto].
  - destruct HI as [-> | HI]; [exists l; split; [left; auto|auto]|]. destruct (IH HI) as [x [H1 H2]]. exists x. split; [right; auto|auto].
Qed.

(* The daemon mounts nowhere unless a line of its file allows it: a line whose path led, as the
   file was read, to a path that named the directory at the time of the request, and which has
   no uid= or whose last uid= is read as the caller's *)
Theorem mount_by_line : forall realpath f rs W F c i s o s', real_errors W -> input_bytes i ->
  load_rules realpath (Some f) = Some rs -> cf_rules F = Some rs -> serve W F c i s = (o, s') ->
  exists tr, d_trace s' = tr ++ d_trace s /\
  forall t path flags op r, In (EvMount t path flags op r) tr ->
  exists b text ls line p args ss q st, c_read f = Some b /\ text_of b text /\ text = joined ls /\ In line ls /\
    line_words line (p :: args) /\ Forall2 sets args ss /\ leads realpath p q /\
    saw W (d_clock s) t (fun w => w_stat w path = inr st) /\ saw W (d_clock s) t (fun w => names w q st) /\
    ((forall u, ~ In (SUid u) ss) \/ exists l r', ss = l ++ SUid (cr_uid c) :: r' /\ forall u, ~ In (SUid u) r').
Proof.
  intros rp f rs W F c i s o s' RE HB HL HF HR. destruct (mount_checked W F c i s o s' RE HB HR) as [tr [HT HM]].
  exists tr. split; [auto|]. intros t path flags op r HI. destruct (HM _ _ _ _ _ HI) as (b0 & fds & Hi & HA & HC & _).
  destruct HC as [_ _ _ _ (rs' & l1 & ru & r1 & st & E1 & E2 & E3 & E4 & _ & E5)].
  assert (HRS : rs' = rs) by congruence. rewrite HRS in E2. apply rules_loaded in HL.
  destruct HL as (_ & _ & b & text & H3 & _ & H5 & (ls & H6 & H7 & H8 & _)).
  assert (HIN : In ru rs) by (rewrite E2; apply in_or_app; right; left; auto).
  destruct (say_in _ _ _ _ H8 HIN) as [line [HL1 [(p & args & ss & HW & HS & HP & HU & _)]]].
  exists b, text, ls, line, p, args, ss, (ru_path ru), st.
  repeat (split; [assumption|]). destruct HU as [[HU1 HU2]|(l & r' & HU1 & HU2)]; [left; auto|].
  destruct E5 as [E5|E5].
  - exfalso. assert (HV : sets (nth (length l) args []) (SUid (ru_uid ru))).
    { clear - HS HU1. subst ss. revert args HS. induction l as [|x l IH]; intros args HS; inversion HS; subst; [auto|]. cbn [length nth]. auto. }
    inversion HV as [v u HUV Ev|v Hv Ev|v Hv Ev]. destruct HUV as (? & ? & ? & ? & ? & _ & _ & _ & _ & _ & HUV & _). lia.
  - right. exists l, r'. rewrite <- E5. auto.
Qed.
Print Assumptions mount_by_line.

Example mount_by_line_ex :
  match load_rules z_rp (Some (z_file z_text)) with
  | Some rs =>
    match serve y_W (mkConf (Some rs) 1 0 4096) y_c (inr (y_msg 2 (y_par y_a 6 false), [])) y_s with
    | (Val _, s) => existsb (fun e => match e with EvMount _ p _ _ r => same_bytes p y_a && (r =? 0) | _ => false end) (d_trace s)
    | _ => false
    end
  | None => false
  end = true.
Proof. vm_compute. reflexivity. Qed.

(* ---- where the reading falls short ---- *)
(* "100O": not a number in any base, and yet it is taken for user 100 *)
Theorem rules_typo_refuted : exists path v u,
  (forall base n, base = 8 \/ base = 10 \/ base = 16 -> ~ numeral base v n) /\ simple_path path /\
  parse_rules (fun _ => None) (path ++ 32 :: [117; 105; 100; 61] ++ v) = Some [mkRule path u false].
Proof.
  exists y_a, [49; 48; 48; 79], 100. split; [|split; [|vm_compute; reflexivity]].
  - intros base n HB HN. apply numeral_run in HN. destruct HN as [_ HN]. change [49; 48; 48; 79] with ([49; 48; 48] ++ [79]) in HN.
    apply run_last in HN. destruct HN as (w & d & _ & HD & _). unfold digit in HD. lia.
  - split; [discriminate|]. repeat (constructor; [unfold space; lia|]). constructor.
Qed.
Print Assumptions rules_typo_refuted.

(* "uid=01000" is taken for user 512 *)
Theorem rules_octal_refuted : exists path v u u',
  numeral 10 v u /\ u <> u' /\ simple_path path /\
  parse_rules (fun _ => None) (path ++ 32 :: [117; 105; 100; 61] ++ v) = Some [mkRule path u' false].
Proof.
  exists y_a, [48; 49; 48; 48; 48], 1000, 512. split; [|split; [lia|split; [|vm_compute; reflexivity]]].
  - replace 1000 with ((((0 * 10 + 1) * 10 + 0) * 10 + 0) * 10 + 0) by lia.
    change [48; 49; 48; 48; 48] with (((([48] ++ [49]) ++ [48]) ++ [48]) ++ [48]).
    repeat (first [apply numeral_one|apply numeral_more]); unfold digit; lia.
  - split; [discriminate|]. repeat (constructor; [unfold space; lia|]). constructor.
Qed.
Print Assumptions rules_octal_refuted.

(* "/m/a#1 uid=1000": a path with # becomes a rule for another directory, for all users *)
Theorem rules_hash_refuted : exists path q u v,
  plain v u /\ path <> q /\ ~ (exists c, In c path /\ (space c \/ c = 0)) /\
  parse_rules (fun _ => None) (path ++ 32 :: [117; 105; 100; 61] ++ v) = Some [mkRule q 4294967295 false].
Proof.
  exists (y_a ++ [35; 49]), y_a, 1000, [49; 48; 48; 48]. split; [|split; [discriminate|split; [|vm_compute; reflexivity]]].
  - split; [|split; [left; cbn [hd]; lia|lia]].
    replace 1000 with (((1 * 10 + 0) * 10 + 0) * 10 + 0) by lia.
    change [49; 48; 48; 48] with ((([49] ++ [48]) ++ [48]) ++ [48]).
    repeat (first [apply numeral_one|apply numeral_more]); unfold digit; lia.
  - intros [c [HI HC]]. cbn [y_a app In] in HI. unfold space in HC. lia.
Qed.
Print Assumptions rules_hash_refuted.

(* a NUL ends the file: the lines behind it are left out without a word *)
Theorem rules_nul_refuted : exists text more rs rs',
  text_says (fun _ => None) more rs' /\ rs' <> [] /\
  load_rules (fun _ => None) (Some (z_file (text ++ [0; 10] ++ more))) = Some rs /\
  load_rules (fun _ => None) (Some (z_file text)) = Some rs.
Proof.
  exists (y_a ++ [10]), y_aa, [mkRule y_a 4294967295 false], [mkRule y_aa 4294967295 false].
  split; [apply parse_rules_iff; [reflexivity|vm_compute; reflexivity]|]. split; [discriminate|]. split; vm_compute; reflexivity.
Qed.
Print Assumptions rules_nul_refuted.

(* "/m recursive=true" is taken and kept, and the owner of /m/a is refused still, where a rule
   for /m/a itself lets them mount *)
Theorem rules_recursive_refuted : exists rs rs' ru,
  parse_rules (fun _ => None) [47; 109; 32; 114; 101; 99; 117; 114; 115; 105; 118; 101; 61; 116; 114; 117; 101] = Some rs /\
  In ru rs /\ ru_path ru = firstn 2 y_a /\ ru_rec ru = true /\ for_user ru y_c /\
  parse_rules (fun _ => None) y_a = Some rs' /\
  (let mounts rs := match serve y_W (mkConf (Some rs) 1 0 4096) y_c (inr (y_msg 2 (y_par y_a 6 false), [])) y_s with
     | (_, s) => existsb (fun e => match e with EvMount _ _ _ _ _ => true | _ => false end) (d_trace s) end in
   mounts rs = false /\ mounts rs' = true).
Proof.
  exists [mkRule [47; 109] 4294967295 true], [mkRule y_a 4294967295 false], (mkRule [47; 109] 4294967295 true).
  split; [vm_compute; reflexivity|]. split; [left; auto|]. split; [reflexivity|]. split; [reflexivity|]. split; [left; reflexivity|].
  split; [vm_compute; reflexivity|]. vm_compute. split; reflexivity.
Qed.
Print Assumptions rules_recursive_refuted.
