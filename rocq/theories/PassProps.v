(* C63: the password a command works with. *)
From Verif Require Import Base PassModel PassSpec PassProofs.

(* A text is taken for the password that it says, and refused if it says none. *)
Theorem pass_parsed : forall t p, parse_dup t = Some p <-> says t p.
Proof. exact parse_iff. Qed.
Example ex_pass_parsed : parse_dup [32; 97; 98; 33; 10; 0] = Some [97; 98; 33] /\ parse_dup [97; 32; 98] = None /\ parse_dup [97; 0; 98] = None /\
  parse_dup [97; 200] = None /\ parse_dup [10] = None /\ parse_dup (repeat 97 255) = Some (repeat 97 255) /\ parse_dup (repeat 97 256) = None.
Proof. vm_compute. repeat split; reflexivity. Qed.
Print Assumptions pass_parsed.

(* The library takes it over byte by byte, and so does a command that is given it as an option. *)
Theorem pass_kept : forall t p, says t p -> parse_dup p = Some p /\ exists buf, password_setup p = Some (buf, length p) /\ length buf = 256%nat /\ firstn (length p) buf = p.
Proof.
  intros t p (a & b & _ & _ & _ & HP). split.
  - apply parse_iff. exists [], []. cbn [app]. rewrite app_nil_r. auto.
  - destruct HP as (HN & HL & _). unfold password_setup. replace (Nat.leb 256 (length p)) with false by (symmetry; apply Nat.leb_gt; lia).
    eexists. split; [reflexivity|]. split; [rewrite app_length, repeat_length; lia|]. rewrite firstn_app, Nat.sub_diag, firstn_O, app_nil_r, firstn_all. auto.
Qed.
Example ex_pass_kept : says [97; 98; 10] [97; 98] /\ password_setup [97; 98] = Some ([97; 98] ++ repeat 0 254, 2%nat).
Proof. split; [apply parse_iff|]; vm_compute; reflexivity. Qed.
Print Assumptions pass_kept.

Lemma firstn_line : forall D n, (n <= length (line D))%nat -> firstn n D = firstn n (line D).
Proof.
  intros D n H. destruct (line_front D) as [r E]. transitivity (firstn n (line D ++ r)); [rewrite <- E; auto|].
  rewrite firstn_app. replace (n - length (line D))%nat with 0%nat by lia. rewrite firstn_O. apply app_nil_r.
Qed.
Lemma tty_front : forall f bsz u f' b, f_kind f = Tty -> read_tty f bsz u = (f', Some b) ->
  b = line (f_data f) /\ last b 0 = 10 /\ f_data f = b ++ f_data f' /\ f_kind f' = Tty.
Proof.
  intros f bsz u f' b HK H. unfold read_tty in H. destruct (u_get u); [|discriminate]. destruct (u_set1 u); [|discriminate]. cbn [negb] in H.
  destruct (sys_read (set_echo f false) bsz (u_rd1 u)) as [f2 [c|]] eqn:E; [|destruct (u_set2 u); discriminate]. destruct (u_set2 u); [|discriminate]. cbn [negb] in H. cbv zeta in H.
  destruct (Nat.eqb (length c) 0); [discriminate|]. destruct (Z.eqb_spec (last c 0) 10) as [EL|EL]; [|discriminate]. cbn [negb] in H. injection H as <- <-.
  destruct (read_front _ _ _ _ _ E) as (A1 & A2 & _). cbn [set_echo f_data f_kind] in *. split; [|split; [auto|split; [auto|congruence]]].
  unfold sys_read in E. destruct (u_rd1 u); [discriminate|]. cbv zeta in E. cbn [set_echo f_data f_kind] in E. rewrite HK in E. injection E as _ <-.
  rewrite firstn_line in * by lia. apply line_last. auto.
Qed.
(* Whatever fails: a password that is got is what a text at the begin of the input says; on a
   terminal this is the line that was typed, of a regular file it is all that is left. *)
Theorem pass_got : forall f u f' p, (length (f_data f) <= f_size f)%nat \/ f_kind f <> Reg -> getpass f u = (f', Some p) ->
  exists t, f_data f = t ++ f_data f' /\ says t p /\ (f_kind f = Tty -> exists l, t = l ++ [10] /\ ~ In 10 l) /\ (f_kind f = Reg -> f_data f' = []).
Proof.
  intros f u f' p HS H. unfold getpass in H. destruct (read_from f 1024 u) as [f1 [b|]] eqn:E; [|discriminate]. assert (EF : f1 = f') by congruence. subst f1. assert (EP : parse_dup b = Some p) by congruence. clear H.
  exists b. unfold read_from in E. apply parse_iff in EP. destruct (f_kind f) eqn:EK.
  - destruct (tty_front _ _ _ _ _ EK E) as (A & B & C & _). split; [auto|]. split; [auto|]. split; [|discriminate]. intros _.
    subst b. clear - B. induction (f_data f) as [|c l IH]; [discriminate|]. cbn [line] in *. destruct (Z.eqb_spec c 10) as [->|EC]; [exists []; split; [auto|intros []]|].
    destruct IH as (r & E & HN); [destruct (line l); [cbn [last] in B; congruence|exact B]|]. exists (c :: r). rewrite E. split; [auto|]. intros [X|X]; [congruence|auto].
  - unfold read_file in E. destruct (u_stat u); [|discriminate]. cbn [negb] in E. destruct (Nat.eqb_spec (f_size f) 0) as [|EZ]; [discriminate|]. destruct (Nat.ltb 1024 (f_size f)); [discriminate|].
    destruct (fd_front _ _ _ _ _ E) as (A & B & C). split; [auto|]. split; [auto|]. split; [discriminate|]. intros _. destruct HS as [HS|HS]; [|congruence].
    unfold read_fd in E. destruct (sys_read f (f_size f) (u_rd1 u)) as [f1 [b1|]] eqn:E1; [|discriminate].
    assert (D1 : f_data f1 = []). { unfold sys_read in E1. destruct (u_rd1 u); [discriminate|]. cbv zeta in E1. rewrite EK in E1. injection E1 as <- _. cbn [f_data]. apply skipn_all2. auto. }
    destruct (Nat.eqb (length b1) 0); [discriminate|]. destruct (Nat.eqb (length b1) (f_size f)); [|congruence].
    destruct (sys_read f1 1 (u_rd2 u)) as [f2 [c|]] eqn:E2.
    + destruct (read_front _ _ _ _ _ E2) as (Q & _). rewrite D1 in Q. symmetry in Q. apply app_eq_nil in Q. destruct (Nat.ltb 0 (length c)); [discriminate|]. assert (f2 = f') by congruence. subst f2. tauto.
    + apply read_none in E2. congruence.
  - destruct (fd_front _ _ _ _ _ E) as (A & _). split; [auto|]. split; [auto|]. split; discriminate.
Qed.
Definition fine (n : nat) : outs := mkOuts true true true true (RDone n) (RDone n).
Example ex_pass_got :
  getpass (mkFd Tty 0 [97; 98; 10; 99; 10] true) (fine 0) = (mkFd Tty 0 [99; 10] true, Some [97; 98]) /\
  getpass (mkFd Reg 3 [97; 98; 10] true) (fine 0) = (mkFd Reg 3 [] true, Some [97; 98]) /\
  getpass (mkFd Other 0 [97; 98; 10] true) (fine 9) = (mkFd Other 0 [] true, Some [97; 98]) /\
  snd (getpass (mkFd Tty 0 [97; 98] true) (fine 0)) = None.
Proof. vm_compute. repeat split; reflexivity. Qed.
Print Assumptions pass_got.

(* If nothing fails, it is got: from a terminal, and from a file that is not larger than 1024 bytes. *)
Theorem pass_typed : forall l r p e u, ~ In 10 l -> (length l < 1024)%nat -> says l p ->
  u_get u = true -> u_set1 u = true -> u_set2 u = true -> u_rd1 u <> RErr -> getpass (mkFd Tty 0 (l ++ 10 :: r) e) u = (mkFd Tty 0 r e, Some p).
Proof.
  intros l r p e u HN HL HS G S1 S2 R. unfold getpass, read_from, read_tty. cbn [f_kind]. rewrite G, S1, S2. cbn [negb]. unfold sys_read. destruct (u_rd1 u) as [|n]; [congruence|]. cbv zeta.
  cbn [set_echo f_kind f_data f_size f_echo]. rewrite line_nl by auto.
  replace (Nat.min 1024 (length (l ++ [10]))) with (length (l ++ [10])) by (rewrite app_length; cbn [length]; lia).
  replace (l ++ 10 :: r) with ((l ++ [10]) ++ r) by (rewrite <- app_assoc; auto). rewrite firstn_app, Nat.sub_diag, firstn_O, app_nil_r, firstn_all, skipn_app, Nat.sub_diag, skipn_O, skipn_all. cbn [app].
  replace (Nat.eqb (length (l ++ [10])) 0) with false by (rewrite app_length; cbn [length]; symmetry; apply Nat.eqb_neq; lia). rewrite last_last. cbn [Z.eqb Pos.eqb negb].
  f_equal. apply parse_iff. destruct HS as (a & b & -> & FA & FB & HP). exists a, (b ++ [10]). rewrite <- !app_assoc. split; [auto|]. split; [auto|]. split; [|auto].
  apply Forall_app. split; [auto|]. constructor; [unfold blank; lia|constructor].
Qed.
Theorem pass_filed : forall t p e u, says t p -> (length t <= 1024)%nat -> u_stat u = true -> u_rd1 u <> RErr ->
  getpass (mkFd Reg (length t) t e) u = (mkFd Reg (length t) [] e, Some p).
Proof.
  intros t p e u HS HL US UR. assert (HT : t <> []) by (intros ->; destruct HS as (a & b & E & _ & _ & HN & _); destruct a, p; try discriminate; congruence).
  unfold getpass, read_from, read_file. cbn [f_kind f_size]. rewrite US. cbn [negb]. replace (Nat.eqb (length t) 0) with false by (destruct t; [congruence|auto]).
  replace (Nat.ltb 1024 (length t)) with false by (symmetry; apply Nat.ltb_ge; auto). unfold read_fd, sys_read. destruct (u_rd1 u) as [|n]; [congruence|]. cbv zeta. cbn [f_kind f_size f_data f_echo].
  rewrite firstn_all, skipn_all. replace (Nat.eqb (length t) 0) with false by (destruct t; [congruence|auto]). rewrite Nat.eqb_refl. apply parse_iff in HS. destruct (u_rd2 u); cbn [f_data firstn skipn length]; change (Nat.ltb 0 0) with false; cbv iota; rewrite HS; auto.
Qed.
Example ex_pass_typed : getpass (mkFd Tty 0 ([112; 119] ++ 10 :: [7]) true) (fine 0) = (mkFd Tty 0 [7] true, Some [112; 119]) /\ says [112; 119] [112; 119].
Proof. split; [|apply parse_iff]; vm_compute; reflexivity. Qed.
Example ex_pass_filed : getpass (mkFd Reg 3 [112; 119; 10] true) (fine 0) = (mkFd Reg 3 [] true, Some [112; 119]) /\ says [112; 119; 10] [112; 119].
Proof. split; [|apply parse_iff]; vm_compute; reflexivity. Qed.
Print Assumptions pass_typed.
Print Assumptions pass_filed.

(* Typed twice it is taken only if both say the same. *)
Theorem pass_twice : forall f u1 u2 f' p, f_kind f <> Reg -> getpass2 f u1 u2 = (f', Some p) -> exists t1 t2, f_data f = t1 ++ t2 ++ f_data f' /\ says t1 p /\ says t2 p.
Proof.
  intros f u1 u2 f' p HK H. unfold getpass2 in H. destruct (getpass f u1) as [f1 [p1|]] eqn:E1; [|discriminate]. destruct (getpass f1 u2) as [f2 [p2|]] eqn:E2; [|discriminate].
  destruct (list_eq_dec Z.eq_dec p1 p2) as [EQ|EQ]; [|discriminate]. assert (f2 = f') by congruence. assert (p1 = p) by congruence. subst f2 p1 p2.
  destruct (pass_got f u1 f1 p (or_intror HK) E1) as (t1 & A1 & S1 & _).
  assert (HK1 : f_kind f1 <> Reg).
  { unfold getpass, read_from in E1. destruct (f_kind f) eqn:EK; [|congruence|].
    - destruct (read_tty f 1024 u1) as [g [b|]] eqn:ER; [|discriminate]. assert (g = f1) by congruence. subst g. destruct (tty_front _ _ _ _ _ EK ER) as (_ & _ & _ & K). rewrite K. discriminate.
    - destruct (read_fd f 1024 u1) as [g [b|]] eqn:ER; [|discriminate]. assert (g = f1) by congruence. subst g. destruct (fd_front _ _ _ _ _ ER) as (_ & K & _). rewrite K, EK. discriminate. }
  destruct (pass_got f1 u2 f' p (or_intror HK1) E2) as (t2 & A2 & S2 & _). exists t1, t2. rewrite A1, A2. auto.
Qed.
Example ex_pass_twice :
  getpass2 (mkFd Tty 0 [97; 98; 10; 97; 98; 10] true) (fine 0) (fine 0) = (mkFd Tty 0 [] true, Some [97; 98]) /\
  snd (getpass2 (mkFd Tty 0 [97; 98; 10; 97; 99; 10] true) (fine 0) (fine 0)) = None /\
  snd (getpass2 (mkFd Other 0 [97; 10; 97; 10] true) (fine 2) (fine 2)) = Some [97].
Proof. vm_compute. repeat split; reflexivity. Qed.
Print Assumptions pass_twice.
Theorem pass_typed_twice : forall l1 l2 r p e, ~ In 10 l1 -> ~ In 10 l2 -> (length l1 < 1024)%nat -> (length l2 < 1024)%nat -> says l1 p -> says l2 p ->
  forall n, getpass2 (mkFd Tty 0 (l1 ++ 10 :: l2 ++ 10 :: r) e) (fine n) (fine n) = (mkFd Tty 0 r e, Some p).
Proof.
  intros l1 l2 r p e N1 N2 L1 L2 S1 S2 n. unfold getpass2. rewrite (pass_typed l1 (l2 ++ 10 :: r) p e (fine n)) by (auto; discriminate). rewrite (pass_typed l2 r p e (fine n)) by (auto; discriminate).
  destruct (list_eq_dec Z.eq_dec p p); [auto|congruence].
Qed.
Example ex_pass_typed_twice : getpass2 (mkFd Tty 0 ([97; 98] ++ 10 :: [32; 97; 98] ++ 10 :: [5]) true) (fine 0) (fine 0) = (mkFd Tty 0 [5] true, Some [97; 98]).
Proof. vm_compute. reflexivity. Qed.
Print Assumptions pass_typed_twice.

(* A terminal echoes afterwards as before, also if the command dies, but for tcsetattr itself failing. *)
Theorem pass_echo : forall f u, f_kind f = Tty -> u_set2 u = true -> f_echo (fst (getpass f u)) = f_echo f.
Proof.
  intros f u HK H. unfold getpass, read_from. rewrite HK. unfold read_tty. destruct (u_get u); [|auto]. destruct (u_set1 u); [|auto]. cbn [negb]. destruct (sys_read (set_echo f false) 1024 (u_rd1 u)) as [f2 r]. rewrite H. cbn [negb]. cbv zeta.
  destruct r as [b|]; [|auto]. destruct (Nat.eqb (length b) 0); [auto|]. destruct (negb (last b 0 =? 10)); auto.
Qed.
Example ex_pass_echo : fst (getpass (mkFd Tty 0 [97; 10] true) (mkOuts true true true true RErr RErr)) = mkFd Tty 0 [97; 10] true /\
  f_echo (fst (getpass (mkFd Tty 0 [97; 10] true) (mkOuts true true true false (RDone 0) RErr))) = false.
Proof. vm_compute. split; reflexivity. Qed.
Print Assumptions pass_echo.

(* Where it falls short: (1) from a pipe only one read is done: the begin of the password is taken
   for all of it. *)
Theorem pass_short_refuted : exists t p p' n, says t p /\ p <> p' /\ snd (getpass (mkFd Other 0 t true) (fine n)) = Some p'.
Proof. exists [97; 98; 99; 100; 10], [97; 98; 99; 100], [97; 98], 2%nat. split; [apply parse_iff; vm_compute; reflexivity|]. split; [discriminate|vm_compute; reflexivity]. Qed.
Print Assumptions pass_short_refuted.
(* (2) mkfs asks twice, and reads a file that is its standard input in whole the first time: no
   file works, whatever is in it. *)
Theorem pass_stdin_lost : forall f u1 u2, f_kind f = Reg -> (length (f_data f) <= f_size f)%nat -> snd (getpass2 f u1 u2) = None.
Proof.
  intros f u1 u2 HK HS. unfold getpass2. destruct (getpass f u1) as [f1 [p1|]] eqn:E1; [|auto]. destruct (pass_got f u1 f1 p1 (or_introl HS) E1) as (t & _ & _ & _ & HD). specialize (HD HK).
  destruct (getpass f1 u2) as [f2 [p2|]] eqn:E2; [|auto]. exfalso. assert (HS1 : (length (f_data f1) <= f_size f1)%nat \/ f_kind f1 <> Reg) by (left; rewrite HD; cbn [length]; lia).
  destruct (pass_got f1 u2 f2 p2 HS1 E2) as (t2 & A & (a & b & -> & _ & _ & HN & _) & _). rewrite HD in A. destruct a, p2; try discriminate. congruence.
Qed.
Example ex_pass_stdin_lost : snd (getpass2 (mkFd Reg 6 [97; 98; 10; 97; 98; 10] true) (fine 0) (fine 0)) = None /\ snd (getpass2 (mkFd Reg 3 [97; 98; 10] true) (fine 0) (fine 0)) = None.
Proof. vm_compute. split; reflexivity. Qed.
Print Assumptions pass_stdin_lost.
Theorem pass_stdin_refuted : exists t1 t2 p, says t1 p /\ says t2 p /\ forall u1 u2 e, snd (getpass2 (mkFd Reg (length (t1 ++ t2)) (t1 ++ t2) e) u1 u2) = None.
Proof.
  exists [97; 10], [97; 10], [97]. split; [apply parse_iff; vm_compute; reflexivity|]. split; [apply parse_iff; vm_compute; reflexivity|]. intros u1 u2 e. apply pass_stdin_lost; [auto|]. cbn [f_data f_size]. auto.
Qed.
Print Assumptions pass_stdin_refuted.
(* (3) of a line that is too long the rest stays in the terminal, for the shell to read. *)
Theorem pass_rest_refuted : exists l f', ~ In 10 l /\ getpass (mkFd Tty 0 (l ++ [10]) true) (fine 0) = (f', None) /\ f_data f' = [98; 98; 10].
Proof.
  exists (repeat 97 1024 ++ [98; 98]), (mkFd Tty 0 [98; 98; 10] true). split; [|split; [vm_compute; reflexivity|reflexivity]].
  intros H. apply in_app_or in H. destruct H as [H|H]; [apply repeat_spec in H; discriminate|]. cbn [In] in H. intuition discriminate.
Qed.
Print Assumptions pass_rest_refuted.
