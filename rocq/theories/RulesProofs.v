(* The file of mount rules: the parser reads what the text says (RulesSpec). *)
From Verif Require Import Base AddrModel MntModel RulesModel RulesSpec.

(* ---- pieces of a view ---- *)
Fixpoint upto (p : Z -> bool) (l : bytes) : bytes :=
  match l with [] => [] | c :: r => if p c then [] else c :: upto p r end.
Fixpoint from (p : Z -> bool) (l : bytes) : bytes :=
  match l with [] => [] | c :: r => if p c then l else from p r end.

Lemma upto_from : forall p l, l = upto p l ++ from p l.
Proof. induction l as [|c r IH]; [reflexivity|]. cbn [upto from]. destruct (p c); [reflexivity|]. cbn [app]. congruence. Qed.
Lemma upto_none : forall p l, Forall (fun c => p c = false) (upto p l).
Proof. induction l as [|c r IH]; cbn [upto]; [constructor|]. destruct (p c) eqn:E; constructor; auto. Qed.
Lemma from_head : forall p l, from p l = [] \/ exists c r, from p l = c :: r /\ p c = true.
Proof. induction l as [|c r IH]; cbn [from]; [auto|]. destruct (p c) eqn:E; [right; eauto|auto]. Qed.
Lemma upto_app : forall p a b, Forall (fun c => p c = false) a -> upto p (a ++ b) = a ++ upto p b.
Proof. induction a as [|c a IH]; intros b H; [reflexivity|]. inversion H; subst. cbn [app upto]. rewrite H2, IH by auto. reflexivity. Qed.
Lemma from_app : forall p a b, Forall (fun c => p c = false) a -> from p (a ++ b) = from p b.
Proof. induction a as [|c a IH]; intros b H; [reflexivity|]. inversion H; subst. cbn [app from]. rewrite H2, IH by auto. reflexivity. Qed.
Lemma from_stop : forall p l, (forall c r, l = c :: r -> p c = true) -> from p l = l /\ upto p l = [].
Proof. intros p [|c r] H; [auto|]. cbn [from upto]. rewrite (H c r eq_refl). auto. Qed.

Lemma find_first_eq : forall p l, find_first p l =
  match from p l with [] => None | _ => Some (zlen (upto p l)) end.
Proof.
  induction l as [|c r IH]; [reflexivity|]. cbn [find_first from upto]. destruct (p c) eqn:E; [reflexivity|].
  rewrite IH. destruct (from p r); [reflexivity|]. unfold zlen. cbn [length]. f_equal. lia.
Qed.

Lemma zlen_nn : forall l, 0 <= zlen l. Proof. intros. unfold zlen. lia. Qed.
Lemma zlen_app : forall a b, zlen (a ++ b) = zlen a + zlen b.
Proof. intros. unfold zlen. rewrite app_length. lia. Qed.
Lemma zlen_split : forall p l, zlen l = zlen (upto p l) + zlen (from p l).
Proof. intros. rewrite <- zlen_app, <- upto_from. reflexivity. Qed.
Lemma zlen_0 : forall l, zlen l = 0 <-> l = [].
Proof. intros [|x l]; unfold zlen; cbn [length]; split; intros; [reflexivity|reflexivity|lia|discriminate]. Qed.

Lemma find_from_0 : forall p l, zlen l < NPOS ->
  sv_find_from p l 0 = match from p l with [] => NPOS | _ => zlen (upto p l) end.
Proof.
  intros p l HL. unfold sv_find_from. change (Z.to_nat 0) with 0%nat. cbn [skipn]. rewrite find_first_eq.
  pose proof (zlen_split p l). destruct (0 <? zlen l) eqn:E.
  - destruct (from p l) as [|c r] eqn:EF; [reflexivity|]. cbn [sv_offset].
    assert (zlen (c :: r) > 0) by (unfold zlen; cbn [length]; lia).
    destruct (0 + zlen (upto p l) >=? zlen l) eqn:E2; lia.
  - destruct l as [|x l]; [reflexivity|]. unfold zlen in E. cbn [length] in E. lia.
Qed.

Lemma sv_sub_0 : forall a b, sv_sub (a ++ b) 0 (zlen a) = a.
Proof.
  intros. unfold sv_sub. rewrite zlen_app. pose proof (zlen_nn a). pose proof (zlen_nn b).
  replace (Z.min 0 (zlen a + zlen b)) with 0 by lia. replace (Z.min (zlen a) (zlen a + zlen b - 0)) with (zlen a) by lia.
  change (Z.to_nat 0) with 0%nat. cbn [skipn]. unfold zlen. rewrite Nat2Z.id, firstn_app, Nat.sub_diag, firstn_all.
  cbn [firstn]. apply app_nil_r.
Qed.
Lemma sv_sub_all : forall l n, zlen l <= n -> sv_sub l 0 n = l.
Proof.
  intros. unfold sv_sub. pose proof (zlen_nn l). replace (Z.min 0 (zlen l)) with 0 by lia.
  replace (Z.min n (zlen l - 0)) with (zlen l) by lia. change (Z.to_nat 0) with 0%nat. cbn [skipn].
  unfold zlen. rewrite Nat2Z.id. apply firstn_all.
Qed.
Lemma sv_sub_end : forall a b n, zlen (a ++ b) <= n -> sv_sub (a ++ b) (zlen a) n = b.
Proof.
  intros a b n. unfold sv_sub. rewrite zlen_app. intros. pose proof (zlen_nn a). pose proof (zlen_nn b).
  replace (Z.min (zlen a) (zlen a + zlen b)) with (zlen a) by lia.
  replace (Z.min n (zlen a + zlen b - zlen a)) with (zlen b) by lia.
  unfold zlen. rewrite !Nat2Z.id, skipn_app, skipn_all, Nat.sub_diag. cbn [skipn app]. apply firstn_all.
Qed.
Lemma sv_sub_past : forall l i n, zlen l <= i -> sv_sub l i n = [].
Proof.
  intros. unfold sv_sub. replace (Z.min i (zlen l)) with (zlen l) by lia. unfold zlen at 3. rewrite Nat2Z.id, skipn_all.
  apply firstn_nil.
Qed.

Lemma find_from_pos : forall p a b, zlen (a ++ b) < NPOS -> b <> [] ->
  sv_find_from p (a ++ b) (zlen a) = match from p b with [] => NPOS | _ => zlen a + zlen (upto p b) end.
Proof.
  intros p a b HL HB. unfold sv_find_from. rewrite zlen_app in *.
  assert (zlen b > 0) by (destruct b; [congruence|unfold zlen; cbn [length]; lia]).
  replace (zlen a <? zlen a + zlen b) with true by lia.
  replace (skipn (Z.to_nat (zlen a)) (a ++ b)) with b.
  2:{ unfold zlen. rewrite Nat2Z.id, skipn_app, skipn_all, Nat.sub_diag. reflexivity. }
  rewrite find_first_eq. pose proof (zlen_split p b). destruct (from p b) as [|c r] eqn:EF; [reflexivity|].
  cbn [sv_offset]. rewrite zlen_app. assert (zlen (c :: r) > 0) by (unfold zlen; cbn [length]; lia).
  destruct (zlen a + zlen (upto p b) >=? zlen a + zlen b) eqn:E; lia.
Qed.

Lemma split_eq : forall seps l, zlen l < NPOS ->
  sv_split seps l = (upto (one_of seps) l, from (none_of seps) (from (one_of seps) l)).
Proof.
  intros seps l HL. unfold sv_split. rewrite find_from_0 by auto. set (p := one_of seps).
  destruct (from_head p l) as [EF|[c [r [EF EC]]]]; rewrite EF.
  - pose proof (upto_from p l) as HU. rewrite EF, app_nil_r in HU. rewrite <- HU.
    replace (NPOS <? zlen l) with false by lia. cbn [from].
    rewrite sv_sub_all, sv_sub_past by lia. reflexivity.
  - pose proof (upto_from p l) as HU. pose proof (zlen_split p l) as HZ. rewrite EF in HZ, HU.
    assert (zlen (c :: r) > 0) by (unfold zlen; cbn [length]; lia).
    replace (zlen (upto p l) <? zlen l) with true by lia. f_equal.
    + rewrite HU at 1. apply sv_sub_0.
    + set (a := upto p l) in *. rewrite HU. rewrite find_from_pos by (rewrite <- ?HU; auto; discriminate).
      rewrite <- HU. set (q := none_of seps). destruct (from_head q (c :: r)) as [EG|[d [t [EG ED]]]]; rewrite EG.
      * rewrite sv_sub_past by lia. reflexivity.
      * assert (HV : l = (a ++ upto q (c :: r)) ++ d :: t).
        { rewrite HU at 1. rewrite <- app_assoc. f_equal. rewrite (upto_from q (c :: r)) at 1. rewrite EG. reflexivity. }
        rewrite <- zlen_app. rewrite HV at 1. apply sv_sub_end. rewrite <- HV. lia.
Qed.

Lemma split_chr_eq : forall sep l, zlen l < NPOS ->
  sv_split_chr sep l = (upto (Z.eqb sep) l, tl (from (Z.eqb sep) l)).
Proof.
  intros sep l HL. unfold sv_split_chr. rewrite find_from_0 by auto. set (p := Z.eqb sep).
  destruct (from_head p l) as [EF|[c [r [EF EC]]]]; rewrite EF.
  - pose proof (upto_from p l) as HU. rewrite EF, app_nil_r in HU. rewrite <- HU.
    replace (NPOS <? zlen l) with false by lia. cbn [tl]. rewrite sv_sub_all, sv_sub_past by lia. reflexivity.
  - pose proof (upto_from p l) as HU. pose proof (zlen_split p l) as HZ. rewrite EF in HZ, HU.
    assert (zlen (c :: r) > 0) by (unfold zlen; cbn [length]; lia).
    replace (zlen (upto p l) <? zlen l) with true by lia. f_equal.
    + rewrite HU at 1. apply sv_sub_0.
    + cbn [tl]. set (a := upto p l) in *. assert (HV : l = (a ++ [c]) ++ r) by (rewrite <- app_assoc; exact HU).
      replace (zlen a + 1) with (zlen (a ++ [c])) by (rewrite zlen_app; reflexivity).
      rewrite HV at 1. apply sv_sub_end. rewrite <- HV. lia.
Qed.

Lemma find_last_eq : forall p a b, Forall (fun c => p c = false) b ->
  find_last p (a ++ b) = find_last p a.
Proof.
  induction a as [|c a IH]; intros b HB.
  - cbn [app]. induction HB as [|x b Hx HB IH]; [reflexivity|]. cbn [find_last]. rewrite IH. cbn [find_last]. rewrite Hx. reflexivity.
  - cbn [app find_last]. rewrite IH by auto. reflexivity.
Qed.
Lemma find_last_end : forall p a c, p c = true -> find_last p (a ++ [c]) = Some (zlen a).
Proof.
  induction a as [|x a IH]; intros c HC; cbn [app find_last].
  - rewrite HC. reflexivity.
  - rewrite IH by auto. unfold zlen. cbn [length]. f_equal. lia.
Qed.

(* what is left of a text that ends in characters of the set *)
Lemma chop_eq : forall set a c b, Forall (fun x => none_of set x = false) b -> none_of set c = true ->
  zlen ((a ++ [c]) ++ b) < NPOS -> sv_chop set ((a ++ [c]) ++ b) = a ++ [c].
Proof.
  intros set a c b HB HC HL. unfold sv_chop, sv_find_last. rewrite find_last_eq by auto. rewrite find_last_end by auto.
  cbn [sv_offset]. rewrite !zlen_app in *. change (zlen [c]) with 1 in *. pose proof (zlen_nn b).
  replace (zlen a >=? zlen a + 1 + zlen b) with false by lia. replace (zlen a <? zlen a + 1 + zlen b) with true by lia.
  replace (zlen a + 1) with (zlen (a ++ [c])) by (rewrite zlen_app; reflexivity). apply sv_sub_0.
Qed.
Lemma chop_all : forall set b, Forall (fun x => none_of set x = false) b -> zlen b < NPOS -> sv_chop set b = [].
Proof.
  intros set b HB HL. unfold sv_chop, sv_find_last. replace (find_last (none_of set) b) with (@None Z).
  2:{ symmetry. exact (find_last_eq (none_of set) [] b HB). }
  cbn [sv_offset]. replace (NPOS <? zlen b) with false by lia. unfold sv_sub. pose proof (zlen_nn b).
  replace (Z.min 0 (zlen b)) with 0 by lia. replace (Z.min 0 (zlen b - 0)) with 0 by lia. reflexivity.
Qed.
Lemma trim_eq : forall set l, zlen l < NPOS -> sv_trim set l = from (none_of set) l.
Proof.
  intros set l HL. unfold sv_trim. rewrite find_from_0 by auto. set (p := none_of set).
  destruct (from_head p l) as [EF|[c [r [EF EC]]]]; rewrite EF.
  - apply sv_sub_past. lia.
  - pose proof (upto_from p l) as HU. rewrite EF in HU. set (a := upto p l) in *. rewrite HU at 1. apply sv_sub_end. rewrite <- HU. lia.
Qed.

(* a list ends in a longest run of characters of the set *)
Lemma run_end : forall (p : Z -> bool) l, exists a b, l = a ++ b /\ Forall (fun x => p x = false) b /\
  (a = [] \/ exists a' c, a = a' ++ [c] /\ p c = true).
Proof.
  intros p l. induction l as [|x l IH] using rev_ind.
  - exists [], []. auto.
  - destruct (p x) eqn:E.
    + exists (l ++ [x]), []. rewrite app_nil_r. split; [auto|]. split; [constructor|]. right; eauto.
    + destruct IH as [a [b [-> [HB HA]]]]. exists a, (b ++ [x]). rewrite app_assoc. split; [auto|]. split; [|auto].
      apply Forall_app; auto.
Qed.

Definition is_space (c : Z) : bool := one_of SPACES c.
Lemma is_space_iff : forall c, is_space c = true <-> space c.
Proof. intros. unfold is_space, one_of, SPACES, space. cbn [existsb]. lia. Qed.
Lemma none_space : forall c, none_of SPACES c = false <-> space c.
Proof. intros. unfold none_of. change (one_of SPACES c) with (is_space c). pose proof (is_space_iff c). destruct (is_space c); cbn [negb]; intuition congruence. Qed.
Lemma none_space' : forall c, none_of SPACES c = true <-> ~ space c.
Proof. intros. pose proof (none_space c). destruct (none_of SPACES c); intuition congruence. Qed.
Lemma none_sep : forall c, none_of SEPS c = false <-> blank c.
Proof. intros. unfold none_of, one_of, SEPS, blank. cbn [existsb]. lia. Qed.
Lemma one_sep : forall c, one_of SEPS c = true <-> blank c.
Proof. intros. unfold one_of, SEPS, blank. cbn [existsb]. lia. Qed.
Lemma one_sep' : forall c, one_of SEPS c = false <-> ~ blank c.
Proof. intros. unfold one_of, SEPS, blank. cbn [existsb]. lia. Qed.

Lemma strip_all : forall l, Forall space l -> zlen l < NPOS -> sv_strip_ws l = [].
Proof.
  intros l HS HL. unfold sv_strip_ws. rewrite trim_eq by auto.
  replace (from (none_of SPACES) l) with (@nil Z); [apply chop_all; [constructor|unfold zlen, NPOS; cbn [length]; lia]|].
  symmetry. rewrite <- (app_nil_r l), from_app; [reflexivity|]. eapply Forall_impl; [|apply HS]. intros c; apply none_space.
Qed.
Lemma last_end : forall (a : bytes) c d, last (a ++ [c]) d = c.
Proof. intros. apply last_last. Qed.
Lemma strip_eq : forall lead body trail, Forall space lead -> Forall space trail ->
  ~ space (hd 32 body) -> ~ space (last body 32) -> zlen (lead ++ body ++ trail) < NPOS ->
  sv_strip_ws (lead ++ body ++ trail) = body.
Proof.
  intros lead body trail H1 H2 H3 H4 HL. unfold sv_strip_ws. rewrite trim_eq by auto.
  assert (HN : forall l, Forall space l -> Forall (fun x => none_of SPACES x = false) l).
  { intros. eapply Forall_impl; [|eassumption]. intros c; apply none_space. }
  rewrite from_app by auto. destruct body as [|c body]; [exfalso; apply H3; right; reflexivity|].
  assert (HC : none_of SPACES c = true) by (apply none_space'; exact H3).
  replace (from (none_of SPACES) ((c :: body) ++ trail)) with ((c :: body) ++ trail) by (cbn [app from]; rewrite HC; reflexivity).
  destruct (exists_last (l := c :: body)) as [a [d E]]; [discriminate|]. rewrite E in *. rewrite last_end in H4.
  apply chop_eq; auto.
  - apply none_space'; auto.
  - rewrite zlen_app in HL. pose proof (zlen_nn lead). lia.
Qed.
(* every text is one or the other *)
Lemma strip_cases : forall l, Forall space l \/ exists lead body trail, l = lead ++ body ++ trail /\
  Forall space lead /\ Forall space trail /\ ~ space (hd 32 body) /\ ~ space (last body 32).
Proof.
  intros l. set (p := none_of SPACES).
  assert (HN : forall l, Forall (fun x => p x = false) l -> Forall space l).
  { intros. eapply Forall_impl; [|eassumption]. intros c; apply none_space. }
  destruct (from_head p l) as [EF|[c [r [EF EC]]]].
  - left. rewrite (upto_from p l), EF, app_nil_r. apply HN, upto_none.
  - right. destruct (run_end p (c :: r)) as [a [b [E [HB HA]]]]. exists (upto p l), a, b.
    split; [rewrite <- E, <- EF; apply upto_from|]. split; [apply HN, upto_none|]. split; [auto|].
    destruct HA as [->|[a' [d [-> HD]]]].
    + cbn [app] in E. subst b. inversion HB. congruence.
    + split; [|rewrite last_end; apply none_space'; auto]. destruct a' as [|y a']; cbn [app hd] in *.
      * apply none_space'; auto.
      * injection E as <- _. apply none_space'; auto.
Qed.

(* ---- equal views ---- *)
Lemma same_bytes_iff : forall a b, same_bytes a b = true <-> a = b.
Proof.
  induction a as [|x a IH]; intros [|y b]; cbn [same_bytes]; try (intuition congruence).
  rewrite andb_true_iff, Z.eqb_eq, IH. split; [intros [-> ->]; auto|intros E; injection E; auto].
Qed.
Lemma isequal_iff : forall l s, sv_isequal l s = true <-> l = s.
Proof. intros. unfold sv_isequal. rewrite andb_true_iff, Z.eqb_eq, same_bytes_iff. split; [tauto|intros ->; auto]. Qed.
Lemma isequal_not : forall l s, sv_isequal l s = false <-> l <> s.
Proof. intros. pose proof (isequal_iff l s). destruct (sv_isequal l s); intuition congruence. Qed.
Lemma isempty_iff : forall l, sv_isempty l = true <-> l = [].
Proof. intros. unfold sv_isempty. rewrite Z.eqb_eq. apply zlen_0. Qed.
Lemma isempty_not : forall l, sv_isempty l = false <-> l <> [].
Proof. intros. pose proof (isempty_iff l). destruct (sv_isempty l); intuition congruence. Qed.

(* ---- numbers ---- *)
Lemma digit_of_iff : forall base c d, base <= 36 -> (digit_of c = Some d /\ d <? base = true <-> digit base c d).
Proof.
  intros base c d HB. unfold digit_of, digit.
  destruct ((48 <=? c) && (c <=? 57)) eqn:E1; [split; [intros [H H2]; injection H; lia|intros H; split; [f_equal|]; lia]|].
  destruct ((97 <=? c) && (c <=? 122)) eqn:E2; [split; [intros [H H2]; injection H; lia|intros H; split; [f_equal|]; lia]|].
  destruct ((65 <=? c) && (c <=? 90)) eqn:E3; [split; [intros [H H2]; injection H; lia|intros H; split; [f_equal|]; lia]|].
  split; [intros [H _]; discriminate|lia].
Qed.
Lemma digit_one : forall base c d d', base <= 36 -> digit base c d -> digit base c d' -> d = d'.
Proof. intros base c d d' HB H H'. apply (digit_of_iff base c) in H; apply (digit_of_iff base c) in H'; auto. destruct H, H'. congruence. Qed.
Lemma is_digit_iff : forall base c, base <= 36 -> (is_digit base c = true <-> exists d, digit base c d).
Proof.
  intros base c HB. unfold is_digit. split.
  - destruct (digit_of c) as [d|] eqn:E; [|discriminate]. intros H. exists d. apply digit_of_iff; auto.
  - intros [d H]. apply digit_of_iff in H; auto. destruct H as [-> H]. auto.
Qed.
Lemma has_digit_iff : forall base s, base <= 36 -> (has_digit base s = true <-> goes_on base s).
Proof.
  intros base [|c r] HB; cbn [has_digit]; unfold goes_on.
  - split; [discriminate|]. intros (? & ? & ? & ? & ?); discriminate.
  - rewrite is_digit_iff by auto. split; [intros [d H]; eauto|]. intros (c0 & r0 & d & E & H). injection E as <- <-. eauto.
Qed.

Lemma take_stop : forall base acc s, base <= 36 -> ~ goes_on base s -> take_digits base acc s = (acc, s).
Proof.
  intros base acc [|c r] HB H; [reflexivity|]. cbn [take_digits]. destruct (digit_of c) as [d|] eqn:E; [|reflexivity].
  destruct (d <? base) eqn:E2; [|reflexivity]. exfalso. apply H. exists c, r, d. split; [auto|]. apply digit_of_iff; auto.
Qed.
(* value of a run of digits behind others *)
Inductive run (base : Z) : Z -> bytes -> Z -> Prop :=
| run_nil a : run base a [] a
| run_cons a c d s v : digit base c d -> run base (a * base + d) s v -> run base a (c :: s) v.
Lemma run_inv : forall base a c s v, run base a (c :: s) v -> exists d, digit base c d /\ run base (a * base + d) s v.
Proof. intros base a c s v H. inversion H; subst. eauto. Qed.
Lemma run_inv0 : forall base a v, run base a [] v -> v = a.
Proof. intros base a v H. inversion H; subst. auto. Qed.
Lemma take_run : forall base, base <= 36 -> forall ds acc v rest, run base acc ds v -> ~ goes_on base rest ->
  take_digits base acc (ds ++ rest) = (v, rest).
Proof.
  intros base HB ds. induction ds as [|c ds IH]; intros acc v rest HR HN.
  - apply run_inv0 in HR. subst. apply take_stop; auto.
  - apply run_inv in HR. destruct HR as [d [HD HR]]. cbn [app take_digits]. apply digit_of_iff in HD; auto. destruct HD as [-> HD2]. rewrite HD2. apply IH; auto.
Qed.
Lemma take_spec : forall base, base <= 36 -> forall s acc, exists ds v rest,
  s = ds ++ rest /\ run base acc ds v /\ ~ goes_on base rest /\ take_digits base acc s = (v, rest).
Proof.
  intros base HB s. induction s as [|c r IH]; intros acc.
  - exists [], acc, []. split; [auto|]. split; [constructor|]. split; [intros (? & ? & ? & ? & ?); discriminate|auto].
  - destruct (is_digit base c) eqn:E.
    + apply is_digit_iff in E; auto. destruct E as [d HD]. destruct (IH (acc * base + d)) as [ds [v [rest [-> [HR [HN HT]]]]]].
      exists (c :: ds), v, rest. split; [auto|]. split; [econstructor; eauto|]. split; [auto|]. cbn [take_digits].
      apply digit_of_iff in HD; auto. destruct HD as [-> HD2]. rewrite HD2. auto.
    + assert (HN : ~ goes_on base (c :: r)).
      { intros H. apply has_digit_iff in H; auto. cbn [has_digit] in H. congruence. }
      exists [], acc, (c :: r). split; [auto|]. split; [constructor|]. split; [auto|]. apply take_stop; auto.
Qed.
Lemma run_snoc : forall base a s v c d, run base a s v -> digit base c d -> run base a (s ++ [c]) (v * base + d).
Proof. intros base a s v c d H HD. induction H; cbn [app]; econstructor; eauto. constructor. Qed.
Lemma run_last : forall base a s c v, run base a (s ++ [c]) v -> exists w d, run base a s w /\ digit base c d /\ v = w * base + d.
Proof.
  intros base a s. revert a. induction s as [|x s IH]; intros a c v H; cbn [app] in H; apply run_inv in H; destruct H as [d [HD0 H]].
  - apply run_inv0 in H. exists a, d. split; [constructor|auto].
  - destruct (IH _ _ _ H) as [w [e [HR [HD ->]]]]. exists w, e. split; [econstructor; eauto|auto].
Qed.
Lemma numeral_run : forall base s v, numeral base s v <-> s <> [] /\ run base 0 s v.
Proof.
  intros base s. split.
  - intros H. induction H as [c d HD|s v c d HN [IH1 IH2] HD].
    + split; [discriminate|]. replace d with (0 * base + d) at 1 by lia. change [c] with ([] ++ [c]). apply run_snoc; [constructor|auto].
    + split; [destruct s; discriminate|]. apply run_snoc; auto.
  - revert v. induction s as [|c s IH] using rev_ind; intros v [H1 H2]; [congruence|].
    apply run_last in H2. destruct H2 as [w [d [HR [HD ->]]]]. destruct s as [|x s].
    + apply run_inv0 in HR. subst w. cbn [app]. replace (0 * base + d) with d by lia. constructor; auto.
    + constructor; [|auto]. apply IH. split; [discriminate|auto].
Qed.
Lemma numeral_nn : forall base s v, 0 <= base -> numeral base s v -> 0 <= v.
Proof. intros base s v HB H. induction H; unfold digit in *; nia. Qed.

Lemma x_no_digit : forall base x, base <= 10 -> x = 120 \/ x = 88 -> forall r, ~ goes_on base (x :: r).
Proof. intros base x HB HX r (c & r' & d & E & H). injection E as <- <-. unfold digit in H. lia. Qed.

Lemma digits_spec : forall s v e, strtol_digits s = Some (v, e) <-> number s v e.
Proof.
  intros s v e. split.
  - destruct s as [|c r]; [discriminate|]. unfold strtol_digits. destruct (c =? 48) eqn:EC.
    + assert (c = 48) by lia. subst c.
      assert (HO : Some (take_digits 8 0 (48 :: r)) = Some (v, e) ->
        (forall x r', r = x :: r' -> x = 120 \/ x = 88 -> ~ goes_on 16 r') -> number (48 :: r) v e).
      { intros HT HX. destruct (take_spec 8 ltac:(lia) (48 :: r) 0) as [ds [w [rest [E1 [HR [HN HT2]]]]]].
        rewrite HT2 in HT. injection HT as <- <-. destruct ds as [|y ds].
        - exfalso. cbn [app] in E1. apply HN. rewrite <- E1. exists 48, r, 0. split; [auto|]. unfold digit. lia.
        - cbn [app] in E1. injection E1 as <- E1. change (48 :: r) with (48 :: r). rewrite E1.
          change (48 :: ds ++ rest) with ((48 :: ds) ++ rest). apply number_oct; [apply numeral_run; split; [discriminate|auto]|reflexivity|auto|].
          intros HL x r' -> Hx. destruct ds; [|discriminate]. apply (HX x r'); auto. }
      destruct r as [|x r'].
      * intros HT. apply HO; [auto|]. intros; discriminate.
      * destruct (((x =? 120) || (x =? 88)) && has_digit 16 r') eqn:EX.
        -- intros HT. apply andb_true_iff in EX. destruct EX as [EX EH]. apply has_digit_iff in EH; [|lia].
           destruct (take_spec 16 ltac:(lia) r' 0) as [ds [w [rest [E1 [HR [HN HT2]]]]]].
           rewrite HT2 in HT. injection HT as <- <-. rewrite E1. apply number_hex; [lia| |auto].
           apply numeral_run. split; [|auto]. intros ->. cbn [app] in E1. subst r'. contradiction.
        -- intros HT. apply HO; [auto|]. intros y r0 E HY. injection E as <- <-. intros HG.
           apply has_digit_iff in HG; [|lia]. rewrite HG in EX. lia.
    + destruct (has_digit 10 (c :: r)) eqn:EH; [|discriminate]. intros HT. apply has_digit_iff in EH; [|lia].
      destruct (take_spec 10 ltac:(lia) (c :: r) 0) as [ds [w [rest [E1 [HR [HN HT2]]]]]].
      rewrite HT2 in HT. injection HT as <- <-. rewrite E1. destruct ds as [|y ds].
      * cbn [app] in E1. exfalso. apply HN. rewrite <- E1. auto.
      * apply number_dec; [apply numeral_run; split; [discriminate|auto]| |auto]. cbn [app] in E1. injection E1 as <- _. cbn [hd]. lia.
  - intros H. destruct H as [ds v rest HN HH HG|ds v rest HN HH HG HX|x ds v rest HX HN HG].
    + apply numeral_run in HN. destruct HN as [H1 HR]. destruct ds as [|c ds]; [congruence|]. cbn [hd] in HH.
      unfold strtol_digits. cbn [app]. replace (c =? 48) with false by lia.
      assert (HD : has_digit 10 (c :: ds ++ rest) = true).
      { apply has_digit_iff; [lia|]. apply run_inv in HR. destruct HR as [d [HD _]]. exists c, (ds ++ rest), d. auto. }
      rewrite HD. f_equal. exact (take_run 10 ltac:(lia) (c :: ds) 0 v rest HR HG).
    + apply numeral_run in HN. destruct HN as [H1 HR]. destruct ds as [|c ds]; [congruence|]. cbn [hd] in HH. subst c.
      unfold strtol_digits. cbn [app]. replace (48 =? 48) with true by lia.
      pose proof (take_run 8 ltac:(lia) (48 :: ds) 0 v rest HR HG) as HT. cbn [app] in HT.
      destruct ds as [|y ds].
      * cbn [app] in *. destruct rest as [|x r]; [f_equal; exact HT|].
        destruct ((x =? 120) || (x =? 88)) eqn:EX; cbn [andb]; [|f_equal; exact HT].
        destruct (has_digit 16 r) eqn:EH; [|f_equal; exact HT]. apply has_digit_iff in EH; [|lia].
        exfalso. apply (HX eq_refl x r eq_refl); [lia|auto].
      * cbn [app] in *. assert (HY : exists d, digit 8 y d).
        { apply run_inv in HR. destruct HR as [d0 [_ HR]]. apply run_inv in HR. destruct HR as [d [HD _]]. eauto. }
        destruct HY as [d HY]. replace ((y =? 120) || (y =? 88)) with false by (unfold digit in HY; lia). cbn [andb]. f_equal. exact HT.
    + apply numeral_run in HN. destruct HN as [H1 HR]. unfold strtol_digits. replace (48 =? 48) with true by lia.
      replace ((x =? 120) || (x =? 88)) with true by lia.
      assert (HD : has_digit 16 (ds ++ rest) = true).
      { apply has_digit_iff; [lia|]. destruct ds as [|c ds]; [congruence|]. apply run_inv in HR. destruct HR as [d [HD _]]. exists c, (ds ++ rest), d. auto. }
      rewrite HD. cbn [andb]. f_equal. apply take_run; [lia|auto|auto].
Qed.
Lemma number_nn : forall s v e, number s v e -> 0 <= v.
Proof. intros s v e H. destruct H; eapply numeral_nn; eauto; lia. Qed.
Lemma number_first : forall s v e, number s v e -> exists c r, s = c :: r /\ 48 <= c <= 57.
Proof.
  intros s v e H. destruct H as [ds v rest HN HH HG|ds v rest HN HH HG HX|x ds v rest HX HN HG].
  - apply numeral_run in HN. destruct HN as [H1 HR]. destruct ds as [|c ds]; [congruence|]. apply run_inv in HR. destruct HR as [d [H2 _]]. unfold digit in H2.
    exists c, (ds ++ rest). split; [auto|lia].
  - apply numeral_run in HN. destruct HN as [H1 HR]. destruct ds as [|c ds]; [congruence|]. cbn [hd] in HH. exists c, (ds ++ rest). split; [auto|lia].
  - exists 48, (x :: ds ++ rest). split; [auto|lia].
Qed.
Lemma number_rest : forall s v e, number s v e -> exists a, s = a ++ e.
Proof. intros s v e H. destruct H; [eauto|eauto|]. exists (48 :: x :: ds). auto. Qed.

Lemma skip_app : forall a b, Forall space a -> (forall c r, b = c :: r -> ~ space c) -> skip_space (a ++ b) = b.
Proof.
  intros a b HA HB. induction HA as [|c a HC HA IH].
  - cbn [app]. destruct b as [|c r]; [reflexivity|]. cbn [skip_space]. change (one_of SPACES c) with (is_space c).
    pose proof (HB c r eq_refl). pose proof (is_space_iff c). destruct (is_space c); intuition.
  - cbn [app skip_space]. change (one_of SPACES c) with (is_space c). apply is_space_iff in HC. rewrite HC. auto.
Qed.
Lemma skip_spec : forall s, exists a, s = a ++ skip_space s /\ Forall space a.
Proof.
  induction s as [|c r IH]; [exists []; split; [auto|constructor]|]. cbn [skip_space]. change (one_of SPACES c) with (is_space c).
  pose proof (is_space_iff c). destruct (is_space c).
  - destruct IH as [a [E HA]]. exists (c :: a). split; [cbn [app]; congruence|constructor; [tauto|auto]].
  - exists []. split; [auto|constructor].
Qed.

Lemma parse_uid_iff : forall sv u, parse_uid sv = Some u <-> uid_value sv u.
Proof.
  intros sv u. unfold parse_uid, parse_int, parse_long, uid_value.
  change INT_MAX with 2147483647. change (2147483647 / 2) with 1073741823. change (2 ^ 31) with 2147483648. split.
  - destruct (zlen sv >=? 80) eqn:EL; [discriminate|]. unfold strtol.
    destruct (skip_spec sv) as [lead [E HL]]. set (s1 := skip_space sv) in *.
    assert (HG : forall neg sign s2, s1 = sign ++ s2 ->
      (neg = true /\ sign = [45] \/ neg = false /\ (sign = [] \/ sign = [43])) ->
      match match match strtol_digits s2 with
      | None => None
      | Some (v, e) => let w := if neg : bool then - v else v in
         let over := (w <? - 2 ^ 63) || (w >? 2 ^ 63 - 1) in Some (Z.max (- 2 ^ 63) (Z.min (2 ^ 63 - 1) w), over, e)
      end with None => None | Some (v, range, e) => if range : bool then None else if zlen e >? 1 then None else Some v end
      with None => None | Some num => if (num >? 2147483647) || (num <? -2147483648) then None else Some num end
      = Some u -> 0 <= u <= 1073741823 -> exists lead0 sign0 text n rest, sv = lead0 ++ sign0 ++ text /\ (length sv < 80)%nat /\
        Forall space lead0 /\ number text n rest /\ (length rest <= 1)%nat /\ 0 <= u <= 1073741823 /\
        (sign0 = [] /\ u = n \/ sign0 = [43] /\ u = n \/ sign0 = [45] /\ u = - n)).
    { intros neg sign s2 E2 HS H HU. destruct (strtol_digits s2) as [[v e]|] eqn:ED; [|discriminate].
      apply digits_spec in ED. cbv zeta in H. set (w := if neg then - v else v) in *.
      destruct ((w <? - 2 ^ 63) || (w >? 2 ^ 63 - 1)) eqn:EO; [discriminate|].
      destruct (zlen e >? 1) eqn:EE; [discriminate|].
      replace (Z.max (- 2 ^ 63) (Z.min (2 ^ 63 - 1) w)) with w in H by lia.
      destruct ((w >? 2147483647) || (w <? -2147483648)); [discriminate|]. injection H as <-.
      exists lead, sign, s2, v, e. split; [congruence|]. unfold zlen in *. split; [lia|]. split; [auto|]. split; [auto|]. split; [lia|].
      split; [auto|]. unfold w in *. destruct HS as [[-> ->]|[-> [-> | ->]]]; auto. }
    intros H.
    assert (HX : forall (X : option Z), match X with None => None | Some v => if (v <? 0) || (v >? 1073741823) then None else Some v end = Some u ->
      X = Some u /\ 0 <= u <= 1073741823).
    { intros [x|] HX; [|discriminate]. destruct ((x <? 0) || (x >? 1073741823)) eqn:Ex; [discriminate|]. injection HX as <-. split; [auto|lia]. }
    apply HX in H. destruct H as [H HU]. destruct s1 as [|c r] eqn:Es1.
    + eapply (HG false [] []); eauto.
    + destruct (c =? 45) eqn:E45; [|destruct (c =? 43) eqn:E43].
      * assert (c = 45) by lia. subst c. eapply (HG true [45] r); eauto.
      * assert (c = 43) by lia. subst c. eapply (HG false [43] r); eauto.
      * eapply (HG false [] (c :: r)); eauto.
  - intros (lead & sign & text & n & rest & E & HL & HS & HN & HR & HU & HG).
    destruct (number_first _ _ _ HN) as [c [r [Et Hc]]]. pose proof (number_nn _ _ _ HN) as Hn. apply digits_spec in HN.
    assert (HK : skip_space sv = sign ++ text).
    { rewrite E. apply skip_app; [auto|]. intros c0 r0 E0. assert (c0 = 43 \/ c0 = 45 \/ c0 = c).
      { destruct HG as [[-> _]|[[-> _]|[-> _]]]; cbn [app] in E0; [rewrite Et in E0|..]; injection E0; auto. }
      unfold space. lia. }
    assert (HT : strtol sv = Some (u, false, rest)).
    { unfold strtol. rewrite HK. clear HK.
      destruct HG as [[-> Hu]|[[-> Hu]|[-> Hu]]]; cbn [app].
      - rewrite Et at 1. replace (c =? 45) with false by lia. replace (c =? 43) with false by lia. cbv iota. rewrite HN.
        cbv beta iota zeta. rewrite <- Hu. replace ((u <? _) || _) with false by lia. do 3 f_equal. lia.
      - change (43 =? 45) with false. change (43 =? 43) with true. cbv iota. rewrite HN.
        cbv beta iota zeta. rewrite <- Hu. replace ((u <? _) || _) with false by lia. do 3 f_equal. lia.
      - change (45 =? 45) with true. cbv iota. rewrite HN.
        cbv beta iota zeta. rewrite <- Hu. replace ((u <? _) || _) with false by lia. do 3 f_equal. lia. }
    rewrite HT. unfold zlen. replace (Z.of_nat (length sv) >=? 80) with false by lia.
    replace (Z.of_nat (length rest) >? 1) with false by lia. replace ((u >? 2147483647) || (u <? _)) with false by lia.
    replace ((u <? 0) || (u >? 1073741823)) with false by lia. reflexivity.
Qed.

(* ---- settings ---- *)
Definition apply_set (ru : rule) (s : setting) : rule :=
  match s with SUid u => mkRule (ru_path ru) u (ru_rec ru) | SRec b => mkRule (ru_path ru) (ru_uid ru) b end.

Definition NB : bytes -> Prop := Forall (fun c => ~ blank c).
Definition small_text (l : bytes) : Prop := zlen l < NPOS.
Lemma small_app_l : forall a b, small_text (a ++ b) -> small_text a.
Proof. intros a b. unfold small_text. rewrite zlen_app. pose proof (zlen_nn b). lia. Qed.
Lemma small_app_r : forall a b, small_text (a ++ b) -> small_text b.
Proof. intros a b. unfold small_text. rewrite zlen_app. pose proof (zlen_nn a). lia. Qed.

Lemma split_words_one : forall w, small_text w -> NB w -> sv_split SEPS w = (w, []).
Proof.
  intros w HL HW. rewrite split_eq by auto. rewrite <- (app_nil_r w) at 1 2.
  rewrite upto_app, from_app; [cbn [upto from]; rewrite app_nil_r; reflexivity|..];
    (eapply Forall_impl; [|apply HW]; intros c; apply one_sep').
Qed.
Lemma words_hd : forall b ws, words b ws -> exists c r, b = c :: r /\ ~ blank c.
Proof.
  intros b ws H. destruct H as [w H1 H2|w sep b ws H1 H2 H3 H4 H5]; destruct w as [|c w]; try congruence;
    inversion H2; subst; cbn [app]; eauto.
Qed.
Lemma split_words_more : forall w sep b, small_text (w ++ sep ++ b) -> NB w -> sep <> [] -> Forall blank sep ->
  (exists c r, b = c :: r /\ ~ blank c) -> sv_split SEPS (w ++ sep ++ b) = (w, b).
Proof.
  intros w sep b HL HW HS HB [c [r [-> HC]]]. rewrite split_eq by auto.
  assert (HW' : Forall (fun c => one_of SEPS c = false) w) by (eapply Forall_impl; [|apply HW]; intros x; apply one_sep').
  rewrite upto_app, from_app by auto. destruct sep as [|s sep]; [congruence|]. inversion HB; subst.
  cbn [app upto from]. apply one_sep in H1. rewrite H1. rewrite app_nil_r. f_equal.
  change (s :: sep ++ c :: r) with ((s :: sep) ++ c :: r). rewrite from_app.
  - cbn [from]. destruct (none_of SEPS c) eqn:EN; [reflexivity|]. apply none_sep in EN. contradiction.
  - eapply Forall_impl; [|apply HB]. intros x. apply none_sep.
Qed.

Definition eqkv := 61.
Lemma kv_split : forall k v, small_text (k ++ 61 :: v) -> ~ In 61 k -> sv_split_chr 61 (k ++ 61 :: v) = (k, v).
Proof.
  intros k v HL HK. rewrite split_chr_eq by auto.
  assert (Forall (fun c => (61 =? c) = false) k).
  { apply Forall_forall. intros x HX. destruct (61 =? x) eqn:E; [|auto]. assert (x = 61) by lia. subst. contradiction. }
  rewrite upto_app, from_app by auto. cbn [upto from]. change (61 =? 61) with true. cbn [tl]. rewrite app_nil_r. reflexivity.
Qed.
Lemma kv_inv : forall w k v, small_text w -> sv_split_chr 61 w = (k, v) -> v <> [] -> w = k ++ 61 :: v.
Proof.
  intros w k v HL H HV. rewrite split_chr_eq in H by auto. injection H as <- <-.
  destruct (from_head (Z.eqb 61) w) as [E|[c [r [E EC]]]]; rewrite E in HV; cbn [tl] in HV; [congruence|].
  assert (c = 61) by lia. subst c. rewrite (upto_from (Z.eqb 61) w) at 1. rewrite E. reflexivity.
Qed.

Lemma bool_iff : forall v b, parse_bool v = Some b <->
  (b = true /\ (v = [49] \/ v = [116; 114; 117; 101]) \/ b = false /\ (v = [48] \/ v = [102; 97; 108; 115; 101])).
Proof.
  intros v b. unfold parse_bool. pose proof (isequal_iff v s_1). pose proof (isequal_iff v s_true).
  pose proof (isequal_iff v s_0). pose proof (isequal_iff v s_false).
  unfold s_1, s_true, s_0, s_false in *.
  destruct (sv_isequal v [49]) eqn:E1; [assert (v = [49]) by tauto; subst; cbn [orb]; intuition congruence|].
  destruct (sv_isequal v [116; 114; 117; 101]) eqn:E2; [assert (v = [116; 114; 117; 101]) by tauto; subst; cbn [orb]; intuition congruence|].
  destruct (sv_isequal v [48]) eqn:E3; [assert (v = [48]) by tauto; subst; cbn [orb]; intuition congruence|].
  destruct (sv_isequal v [102; 97; 108; 115; 101]) eqn:E4; [assert (v = [102; 97; 108; 115; 101]) by tauto; subst; cbn [orb]; intuition congruence|].
  cbn [orb]. intuition congruence.
Qed.

(* one argument *)
Definition one_arg (w : bytes) (ru : rule) : option rule :=
  let '(key, val) := sv_split_chr 61 w in
  if sv_isempty key || sv_isempty val then None
  else if sv_isequal key s_recursive then
    match parse_bool val with None => None | Some b => Some (mkRule (ru_path ru) (ru_uid ru) b) end
  else if sv_isequal key s_uid then
    match parse_uid val with None => None | Some u => Some (mkRule (ru_path ru) u (ru_rec ru)) end
  else None.

Lemma uid_some : forall v u, uid_value v u -> v <> [].
Proof.
  intros v u (lead & sign & text & n & rest & E & _ & _ & HN & _) ->. destruct (number_first _ _ _ HN) as [c [r [-> _]]].
  destruct lead; destruct sign; discriminate.
Qed.

Lemma one_arg_iff : forall w ru ru', small_text w ->
  (one_arg w ru = Some ru' <-> exists s, sets w s /\ ru' = apply_set ru s).
Proof.
  intros w ru ru' HL. unfold one_arg. split.
  - destruct (sv_split_chr 61 w) as [key val] eqn:E.
    destruct (sv_isempty key || sv_isempty val) eqn:EE; [discriminate|].
    assert (HV : val <> []) by (apply isempty_not; apply orb_false_iff in EE; tauto). pose proof (kv_inv _ _ _ HL E HV) as HW.
    destruct (sv_isequal key s_recursive) eqn:EK.
    + apply isequal_iff in EK. subst key. destruct (parse_bool val) as [b|] eqn:EB; [|discriminate]. intros H.
      exists (SRec b). split; [|cbn [apply_set]; congruence]. rewrite HW. apply bool_iff in EB.
      destruct EB as [[-> HB]|[-> HB]]; [apply (sets_on val HB)|apply (sets_off val HB)].
    + destruct (sv_isequal key s_uid) eqn:EU; [|discriminate]. apply isequal_iff in EU. subst key.
      destruct (parse_uid val) as [u|] eqn:EB; [|discriminate]. intros H. apply parse_uid_iff in EB.
      exists (SUid u). split; [|cbn [apply_set]; congruence]. rewrite HW. apply (sets_uid val u EB).
  - intros [s [HS ->]]. destruct HS as [v u HV|v HV|v HV].
    + change ([117; 105; 100; 61] ++ v) with (s_uid ++ 61 :: v) in *. rewrite kv_split; [|auto|unfold s_uid; cbn [In]; lia].
      pose proof (uid_some _ _ HV) as HE. apply isempty_not in HE. rewrite HE. change (sv_isempty s_uid) with false. cbn [orb].
      change (sv_isequal s_uid s_recursive) with false. change (sv_isequal s_uid s_uid) with true.
      apply parse_uid_iff in HV. rewrite HV. reflexivity.
    + change ([114; 101; 99; 117; 114; 115; 105; 118; 101; 61] ++ v) with (s_recursive ++ 61 :: v) in *.
      rewrite kv_split; [|auto|unfold s_recursive; cbn [In]; lia].
      assert (HE : sv_isempty v = false) by (destruct HV; subst v; reflexivity). rewrite HE.
      change (sv_isempty s_recursive) with false. cbn [orb]. change (sv_isequal s_recursive s_recursive) with true.
      assert (HB : parse_bool v = Some true) by (apply bool_iff; auto). rewrite HB. reflexivity.
    + change ([114; 101; 99; 117; 114; 115; 105; 118; 101; 61] ++ v) with (s_recursive ++ 61 :: v) in *.
      rewrite kv_split; [|auto|unfold s_recursive; cbn [In]; lia].
      assert (HE : sv_isempty v = false) by (destruct HV; subst v; reflexivity). rewrite HE.
      change (sv_isempty s_recursive) with false. cbn [orb]. change (sv_isequal s_recursive s_recursive) with true.
      assert (HB : parse_bool v = Some false) by (apply bool_iff; auto). rewrite HB. reflexivity.
Qed.

Lemma parse_args_step : forall k w tail ru, w <> [] -> parse_args (S k) (w, tail) ru =
  match one_arg w ru with None => None | Some ru' => parse_args k (sv_split SEPS tail) ru' end.
Proof.
  intros k w tail ru HW. cbn [parse_args]. apply isempty_not in HW. rewrite HW. cbn [andb]. unfold one_arg.
  destruct (sv_split_chr 61 w) as [key val]. destruct (sv_isempty key || sv_isempty val); [reflexivity|].
  destruct (sv_isequal key s_recursive); [destruct (parse_bool val); reflexivity|].
  destruct (sv_isequal key s_uid); [destruct (parse_uid val); reflexivity|reflexivity].
Qed.

Fixpoint fold_args (ws : list bytes) (ru : rule) : option rule :=
  match ws with
  | [] => Some ru
  | w :: r => match one_arg w ru with None => None | Some ru' => fold_args r ru' end
  end.

Lemma words_len : forall b ws, words b ws -> (length ws <= length b)%nat.
Proof.
  intros b ws H. induction H as [w H1 H2|w sep b ws H1 H2 H3 H4 H5 IH].
  - destruct w; [congruence|]. cbn [length]. lia.
  - rewrite !app_length. destruct w; [congruence|]. cbn [length]. lia.
Qed.
Lemma words_nil : forall b ws, words b ws -> ws <> [] /\ b <> [].
Proof. intros b ws H. split; [destruct H; discriminate|]. destruct (words_hd _ _ H) as [c [r [-> _]]]. discriminate. Qed.

Lemma parse_args_words : forall b ws, words b ws -> small_text b -> forall k ru, (length ws <= k)%nat ->
  parse_args (S k) (sv_split SEPS b) ru = fold_args ws ru.
Proof.
  intros b ws H. induction H as [w H1 H2|w sep b ws H1 H2 H3 H4 H5 IH]; intros HL k ru HK.
  - rewrite split_words_one by auto. rewrite parse_args_step by auto. cbn [fold_args]. destruct (one_arg w ru); [|reflexivity].
    destruct k; reflexivity.
  - rewrite split_words_more; [|auto|auto|auto|auto|eapply words_hd; eauto]. rewrite parse_args_step by auto. cbn [fold_args].
    destruct (one_arg w ru); [|reflexivity]. cbn [length] in HK. destruct k as [|k]; [lia|]. apply IH; [|lia].
    apply small_app_r in HL. apply small_app_r in HL. auto.
Qed.

Lemma parse_rule_args_words : forall b ws path, words b ws -> small_text b ->
  parse_rule_args b path = fold_args ws (mkRule path UID_NONE false).
Proof. intros b ws path H HL. unfold parse_rule_args. apply parse_args_words; auto. eapply words_len; eauto. Qed.
Lemma parse_rule_args_nil : forall path, parse_rule_args [] path = Some (mkRule path UID_NONE false).
Proof. intros. reflexivity. Qed.

Lemma fold_args_iff : forall ws ru ru', Forall small_text ws ->
  (fold_args ws ru = Some ru' <-> exists ss, Forall2 sets ws ss /\ ru' = fold_left apply_set ss ru).
Proof.
  induction ws as [|w ws IH]; intros ru ru' HS.
  - cbn [fold_args]. split; [intros E; injection E as <-; exists []; split; [constructor|auto]|].
    intros [ss [H ->]]. inversion H; subst. reflexivity.
  - inversion HS; subst. cbn [fold_args]. split.
    + destruct (one_arg w ru) as [r1|] eqn:E; [|discriminate]. intros H. apply one_arg_iff in E; auto. destruct E as [s [HA ->]].
      apply IH in H; auto. destruct H as [ss [HB ->]]. exists (s :: ss). split; [constructor; auto|auto].
    + intros [ss [H ->]]. inversion H as [|? s ? ss' HA HB]; subst. cbn [fold_left].
      assert (E : one_arg w ru = Some (apply_set ru s)) by (apply one_arg_iff; eauto). rewrite E. apply IH; eauto.
Qed.

Lemma words_small : forall b ws, words b ws -> small_text b -> Forall small_text ws.
Proof.
  intros b ws H. induction H as [w H1 H2|w sep b ws H1 H2 H3 H4 H5 IH]; intros HL.
  - constructor; auto.
  - constructor; [eapply small_app_l; eauto|]. apply IH. apply small_app_r in HL. apply small_app_r in HL. auto.
Qed.

Lemma fold_uid : forall ss ru, for_uid ss (ru_uid (fold_left apply_set ss ru)) \/
  (forall x, ~ In (SUid x) ss) /\ ru_uid (fold_left apply_set ss ru) = ru_uid ru.
Proof.
  induction ss as [|s ss IH] using rev_ind; intros ru.
  - right. auto.
  - rewrite fold_left_app. cbn [fold_left]. destruct s as [u|b]; cbn [apply_set ru_uid].
    + left. right. exists ss, []. split; [auto|]. intros x [].
    + destruct (IH ru) as [[[H1 H2]|[l [r [H1 H2]]]]|[H1 H2]].
      * left. left. split; [|auto]. intros x HX. apply in_app_or in HX. destruct HX as [HX|[HX|[]]]; [firstorder|discriminate].
      * left. right. exists l, (r ++ [SRec b]). rewrite H1 at 1. rewrite <- app_assoc. split; [reflexivity|].
        intros x HX. apply in_app_or in HX. destruct HX as [HX|[HX|[]]]; [firstorder|discriminate].
      * right. split; [|auto]. intros x HX. apply in_app_or in HX. destruct HX as [HX|[HX|[]]]; [firstorder|discriminate].
Qed.
Lemma fold_rec : forall ss ru, for_rec ss (ru_rec (fold_left apply_set ss ru)) \/
  (forall x, ~ In (SRec x) ss) /\ ru_rec (fold_left apply_set ss ru) = ru_rec ru.
Proof.
  induction ss as [|s ss IH] using rev_ind; intros ru.
  - right. auto.
  - rewrite fold_left_app. cbn [fold_left]. destruct s as [u|b]; cbn [apply_set ru_rec].
    + destruct (IH ru) as [[[H1 H2]|[l [r [H1 H2]]]]|[H1 H2]].
      * left. left. split; [|auto]. intros x HX. apply in_app_or in HX. destruct HX as [HX|[HX|[]]]; [firstorder|discriminate].
      * left. right. exists l, (r ++ [SUid u]). rewrite H1 at 1. rewrite <- app_assoc. split; [reflexivity|].
        intros x HX. apply in_app_or in HX. destruct HX as [HX|[HX|[]]]; [firstorder|discriminate].
      * right. split; [|auto]. intros x HX. apply in_app_or in HX. destruct HX as [HX|[HX|[]]]; [firstorder|discriminate].
    + left. right. exists ss, []. split; [auto|]. intros x [].
Qed.
Lemma fold_path : forall ss ru, ru_path (fold_left apply_set ss ru) = ru_path ru.
Proof. induction ss as [|[u|b] ss IH]; intros ru; cbn [fold_left]; [auto|rewrite IH; auto|rewrite IH; auto]. Qed.

Lemma last_one : forall (A B : Type) (f : A -> B) ss u u', (forall x y, f x = f y -> x = y) ->
  (exists l r, ss = l ++ f u :: r /\ forall x, ~ In (f x) r) -> (exists l r, ss = l ++ f u' :: r /\ forall x, ~ In (f x) r) -> u = u'.
Proof.
  intros A B f ss u u' HF (l & r & -> & H1) (l' & r' & E & H2). revert l' E. induction l as [|x l IH]; intros [|y l'] E; cbn [app] in E.
  - injection E as E1 E2. apply HF; auto.
  - injection E as E1 E2. exfalso. apply (H1 u'). rewrite E2. apply in_or_app. right. left. auto.
  - injection E as E1 E2. exfalso. apply (H2 u). rewrite <- E2. apply in_or_app. right. left. auto.
  - injection E as E1 E2. eauto.
Qed.
Lemma for_uid_one : forall ss u u', for_uid ss u -> for_uid ss u' -> u = u'.
Proof.
  intros ss u u' [[H1 H2]|H1] [[H3 H4]|H3]; [congruence| | |].
  - destruct H3 as (l & r & -> & _). exfalso. apply (H1 u'). apply in_or_app. right. left. auto.
  - destruct H1 as (l & r & -> & _). exfalso. apply (H3 u). apply in_or_app. right. left. auto.
  - eapply (last_one Z setting SUid); eauto. intros x y E. congruence.
Qed.
Lemma for_rec_one : forall ss u u', for_rec ss u -> for_rec ss u' -> u = u'.
Proof.
  intros ss u u' [[H1 H2]|H1] [[H3 H4]|H3]; [congruence| | |].
  - destruct H3 as (l & r & -> & _). exfalso. apply (H1 u'). apply in_or_app. right. left. auto.
  - destruct H1 as (l & r & -> & _). exfalso. apply (H3 u). apply in_or_app. right. left. auto.
  - eapply (last_one bool setting SRec); eauto. intros x y E. congruence.
Qed.
Lemma fold_rule : forall ss path ru, ru = fold_left apply_set ss (mkRule path UID_NONE false) <->
  ru_path ru = path /\ for_uid ss (ru_uid ru) /\ for_rec ss (ru_rec ru).
Proof.
  intros ss path ru. set (r0 := mkRule path UID_NONE false). set (r := fold_left apply_set ss r0).
  assert (HP : ru_path r = path) by (unfold r; rewrite fold_path; reflexivity).
  assert (HU : for_uid ss (ru_uid r)).
  { destruct (fold_uid ss r0) as [H|[H1 H2]]; [exact H|]. left. split; [auto|]. unfold r. rewrite H2. reflexivity. }
  assert (HR : for_rec ss (ru_rec r)).
  { destruct (fold_rec ss r0) as [H|[H1 H2]]; [exact H|]. left. split; [auto|]. unfold r. rewrite H2. reflexivity. }
  split; [intros ->; auto|]. intros (H1 & H2 & H3). destruct ru as [p u b]. destruct r as [p' u' b']. cbn [ru_path ru_uid ru_rec] in *.
  f_equal; [congruence|eapply for_uid_one; eauto|eapply for_rec_one; eauto].
Qed.

(* ---- a line ---- *)
Lemma words_exist : forall n b, (length b <= n)%nat -> b <> [] -> ~ blank (hd 32 b) -> ~ blank (last b 32) ->
  exists ws, words b ws.
Proof.
  induction n as [|n IH]; intros b HL HB HH HE.
  - destruct b; [congruence|]. cbn [length] in HL. lia.
  - set (p := one_of SEPS). assert (HU : NB (upto p b)).
    { eapply Forall_impl; [|apply (upto_none p b)]. intros c. apply one_sep'. }
    assert (HW : upto p b <> []).
    { destruct b as [|c b]; [congruence|]. cbn [hd] in HH. cbn [upto]. apply one_sep' in HH. unfold p. rewrite HH. discriminate. }
    destruct (from_head p b) as [EF|[c [r [EF EC]]]].
    + exists [b]. pose proof (upto_from p b) as E. rewrite EF, app_nil_r in E. rewrite <- E in HU. constructor; auto.
    + pose proof (upto_from p b) as E. set (q := none_of SEPS). pose proof (upto_from q (from p b)) as E2.
      set (sep := upto q (from p b)) in *. set (b2 := from q (from p b)) in *.
      assert (HS : Forall blank sep).
      { eapply Forall_impl; [|apply (upto_none q (from p b))]. intros x. apply none_sep. }
      assert (HSN : sep <> []).
      { unfold sep. rewrite EF. cbn [upto]. assert (q c = false) by (apply none_sep; apply one_sep; auto). rewrite H. discriminate. }
      assert (HE2 : b = upto p b ++ sep ++ b2) by (rewrite <- E2; auto).
      destruct (from_head q (from p b)) as [EG|[d [t [EG ED]]]]; fold b2 in EG.
      * exfalso. apply HE. rewrite EG, app_nil_r in HE2. destruct (exists_last HSN) as [s' [x Ex]].
        rewrite HE2, Ex, app_assoc, last_last. rewrite Ex in HS. apply Forall_app in HS. destruct HS as [_ HS]. inversion HS; auto.
      * assert (HD : ~ blank d).
        { intros HBd. apply none_sep in HBd. unfold q in ED. congruence. }
        destruct (IH b2) as [ws HWS].
        -- apply (f_equal (@length Z)) in HE2. rewrite !app_length in HE2. destruct (upto p b); [congruence|]. cbn [length] in HE2. lia.
        -- rewrite EG. discriminate.
        -- rewrite EG. cbn [hd]. auto.
        -- replace (last b2 32) with (last b 32); [auto|]. assert (b2 <> []) by (rewrite EG; discriminate).
           destruct (exists_last H) as [s' [x Ex]]. rewrite HE2, Ex, !app_assoc, !last_last. reflexivity.
        -- exists (upto p b :: ws). rewrite HE2 at 1. constructor; auto.
Qed.

Lemma blank_space : forall c, blank c -> space c.
Proof. unfold blank, space. intros. lia. Qed.
Lemma no35_space : forall l, Forall space l -> ~ In 35 l.
Proof. intros l H HI. rewrite Forall_forall in H. apply H in HI. unfold space in HI. lia. Qed.
Lemma cut_comment : forall h note, small_text (h ++ note) -> ~ In 35 h -> comment note -> fst (sv_split_chr 35 (h ++ note)) = h.
Proof.
  intros h note HL HH HN. rewrite split_chr_eq by auto. cbn [fst].
  rewrite upto_app.
  - destruct HN as [->|[r ->]]; cbn [upto]; [apply app_nil_r|]. change (35 =? 35) with true. apply app_nil_r.
  - apply Forall_forall. intros x HX. destruct (35 =? x) eqn:E; [|auto]. assert (x = 35) by lia. subst. contradiction.
Qed.
Lemma find_comment : forall l, exists h note, l = h ++ note /\ ~ In 35 h /\ comment note.
Proof.
  intros l. exists (upto (Z.eqb 35) l), (from (Z.eqb 35) l). split; [apply upto_from|]. split.
  - intros HI. pose proof (upto_none (Z.eqb 35) l) as H. rewrite Forall_forall in H. apply H in HI. lia.
  - destruct (from_head (Z.eqb 35) l) as [->|[c [r [-> E]]]]; [left; auto|right]. exists r. f_equal. lia.
Qed.

Section Load.
Variable realpath : bytes -> option bytes.

Lemma leads_iff : forall p q, leads realpath p q <-> q = realpath_of realpath p.
Proof.
  intros p q. unfold leads, realpath_of. destruct (realpath p) as [r|]; split; [|intros ->; auto| |intros ->; auto].
  - intros [H|[H _]]; congruence.
  - intros [H|[_ H]]; congruence.
Qed.

Definition line_result (l : bytes) (o : option rule) : Prop :=
  match o with None => blank_line l | Some ru => line_rule realpath l ru end.
Definition add (o : option rule) (rs : list rule) : list rule :=
  match o with None => rs | Some ru => rs ++ [ru] end.

Lemma rule_words : forall body path args rs, words body (path :: args) -> small_text body ->
  (let '(p, a) := sv_split SEPS body in parse_rule realpath p a rs) =
  if Z.of_nat (length rs) <? MNTRULE_MAX then
    match fold_args args (mkRule (realpath_of realpath path) UID_NONE false) with None => None | Some ru => Some (rs ++ [ru]) end
  else None.
Proof.
  intros body path args rs HW HL. inversion HW; subst.
  - rewrite split_words_one by auto. unfold parse_rule. rewrite parse_rule_args_nil. reflexivity.
  - rewrite split_words_more; [|auto|auto|auto|auto|eapply words_hd; eauto]. unfold parse_rule.
    rewrite (parse_rule_args_words b args) by (auto; do 2 apply small_app_r in HL; auto). reflexivity.
Qed.

Lemma parse_line_iff : forall l rs rs', small_text l ->
  (parse_line realpath l rs = Some rs' <->
   exists o, line_result l o /\ rs' = add o rs /\ (o <> None -> (length rs < 1024)%nat)).
Proof.
  intros l rs rs' HL. unfold parse_line. split.
  - destruct (find_comment l) as [h [note [-> [H1 H2]]]]. rewrite cut_comment by auto. pose proof (small_app_l _ _ HL) as HLh.
    destruct (strip_cases h) as [HS|(lead & body & trail & -> & HS1 & HS2 & HS3 & HS4)].
    + rewrite strip_all by auto. cbn [sv_isempty]. change (sv_isempty []) with true. cbv iota. intros E. injection E as <-.
      exists None. split; [exists h, note; auto|]. split; [auto|congruence].
    + rewrite strip_eq by auto. assert (HB : body <> []) by (intros ->; apply HS3; right; reflexivity).
      pose proof HB as HB'. apply isempty_not in HB'. rewrite HB'.
      destruct (words_exist (length body) body) as [ws HW]; [lia|auto|intros X; apply HS3, blank_space, X|intros X; apply HS4, blank_space, X|].
      destruct ws as [|path args]; [apply words_nil in HW; destruct HW; congruence|].
      assert (HLb : small_text body) by (eapply small_app_l, small_app_r, HLh).
      rewrite (rule_words body path args rs HW HLb).
      destruct (Z.of_nat (length rs) <? MNTRULE_MAX) eqn:EM; [|discriminate].
      destruct (fold_args args _) as [ru|] eqn:EF; [|discriminate]. intros E. injection E as <-.
      exists (Some ru). split; [|split; [auto|intros _; unfold MNTRULE_MAX in EM; lia]].
      pose proof (words_small _ _ HW HLb) as HSM. inversion HSM; subst.
      apply fold_args_iff in EF; auto. destruct EF as [ss [HF E]]. apply fold_rule in E. destruct E as [E1 [E2 E3]].
      constructor. exists path, args, ss. split.
      * constructor. exists lead, body, trail, note. rewrite <- !app_assoc. split; [auto|]. split; [auto|]. split; [auto|]. split; [auto|].
        split; [|auto]. intros X. apply H1. apply in_or_app. right. apply in_or_app. auto.
      * split; [auto|]. split; [apply leads_iff; auto|auto].
  - intros [o [HO [-> HM]]]. destruct o as [ru|]; cbn [line_result add] in *.
    + destruct HO as [(path & args & ss & HLW & HF & HP & HU & HR)]. destruct HLW as [(lead & body & trail & note & E & H1 & H2 & H3 & H4 & H5 & H6 & HW)].
      subst l. assert (HC : fst (sv_split_chr 35 (lead ++ body ++ trail ++ note)) = lead ++ body ++ trail).
      { replace (lead ++ body ++ trail ++ note) with ((lead ++ body ++ trail) ++ note) in * by (rewrite <- !app_assoc; auto).
        apply cut_comment; auto. intros X. apply in_app_or in X. destruct X as [X|X]; [eapply no35_space; [|apply X]; auto|].
        apply in_app_or in X. destruct X as [X|X]; [contradiction|eapply no35_space; [|apply X]; auto]. }
      rewrite HC. assert (HLh : small_text (lead ++ body ++ trail)).
      { eapply small_app_l with (b := note). rewrite <- !app_assoc. auto. }
      rewrite strip_eq by auto. assert (HB : body <> []) by (intros ->; apply H5; right; reflexivity).
      apply isempty_not in HB. rewrite HB. assert (HLb : small_text body) by (eapply small_app_l, small_app_r, HLh).
      rewrite (rule_words body path args rs HW HLb).
      replace (Z.of_nat (length rs) <? MNTRULE_MAX) with true by (assert (length rs < 1024)%nat by (apply HM; discriminate); unfold MNTRULE_MAX; lia).
      pose proof (words_small _ _ HW HLb) as HSM. inversion HSM; subst.
      assert (EF : fold_args args (mkRule (realpath_of realpath path) UID_NONE false) = Some ru).
      { apply fold_args_iff; auto. exists ss. split; [auto|]. apply fold_rule. split; [apply leads_iff; auto|auto]. }
      rewrite EF. reflexivity.
    + destruct HO as (lead & note & -> & H1 & H2). rewrite cut_comment by (auto; apply no35_space; auto).
      rewrite strip_all by (auto; eapply small_app_l; eauto). reflexivity.
Qed.

(* ---- lines ---- *)
Fixpoint fold_lines (ls : list bytes) (rs : list rule) : option (list rule) :=
  match ls with
  | [] => Some rs
  | l :: r => match parse_line realpath l rs with None => None | Some rs' => fold_lines r rs' end
  end.
Lemma parse_line_nil : forall rs, parse_line realpath [] rs = Some rs.
Proof. reflexivity. Qed.
Lemma split_nl : forall l r, small_text (l ++ 10 :: r) -> ~ In 10 l -> sv_split_chr 10 (l ++ 10 :: r) = (l, r).
Proof.
  intros l r HL HN. rewrite split_chr_eq by auto.
  assert (Forall (fun c => (10 =? c) = false) l).
  { apply Forall_forall. intros x HX. destruct (10 =? x) eqn:E; [|auto]. assert (x = 10) by lia. subst. contradiction. }
  rewrite upto_app, from_app by auto. cbn [upto from]. change (10 =? 10) with true. cbn [tl]. rewrite app_nil_r. reflexivity.
Qed.
Lemma split_nl_one : forall l, small_text l -> ~ In 10 l -> sv_split_chr 10 l = (l, []).
Proof.
  intros l HL HN. rewrite split_chr_eq by auto.
  assert (Forall (fun c => (10 =? c) = false) l).
  { apply Forall_forall. intros x HX. destruct (10 =? x) eqn:E; [|auto]. assert (x = 10) by lia. subst. contradiction. }
  rewrite <- (app_nil_r l) at 1 2. rewrite upto_app, from_app by auto. cbn [upto from tl]. rewrite app_nil_r. reflexivity.
Qed.
Lemma joined_nil : forall ls, joined ls = [] -> ls = [] \/ ls = [[]].
Proof. intros [|l [|l2 r]] H; cbn [joined] in H; [auto|subst; auto|destruct l; discriminate]. Qed.

Lemma parse_lines_joined : forall ls, ls <> [] -> Forall (fun l => ~ In 10 l) ls -> small_text (joined ls) ->
  forall k rs, (length ls <= S k)%nat ->
  parse_lines realpath (S k) (sv_split_chr 10 (joined ls)) rs = fold_lines ls rs.
Proof.
  induction ls as [|l ls IH]; intros HN HF HL k rs HK; [congruence|]. inversion HF; subst. destruct ls as [|l2 r].
  - cbn [joined] in *. rewrite split_nl_one by auto. cbn [parse_lines fold_lines]. change (sv_isempty []) with true.
    rewrite andb_true_r. destruct (sv_isempty l) eqn:E.
    + apply isempty_iff in E. subst l. rewrite parse_line_nil. reflexivity.
    + destruct (parse_line realpath l rs) as [rs'|]; [|reflexivity]. destruct k; reflexivity.
  - change (joined (l :: l2 :: r)) with (l ++ 10 :: joined (l2 :: r)) in *. rewrite split_nl by auto.
    assert (HL2 : small_text (joined (l2 :: r))).
    { change (l ++ 10 :: joined (l2 :: r)) with (l ++ [10] ++ joined (l2 :: r)) in HL. do 2 apply small_app_r in HL. auto. }
    cbn [parse_lines]. destruct (sv_isempty l && sv_isempty (joined (l2 :: r))) eqn:E.
    + apply andb_true_iff in E. destruct E as [E1 E2]. apply isempty_iff in E1. apply isempty_iff in E2. subst l.
      apply joined_nil in E2. destruct E2 as [E2|E2]; [discriminate|]. rewrite E2. cbn [fold_lines]. rewrite !parse_line_nil. reflexivity.
    + change (fold_lines (l :: l2 :: r) rs) with (match parse_line realpath l rs with None => None | Some rs' => fold_lines (l2 :: r) rs' end).
      destruct (parse_line realpath l rs) as [rs'|]; [|reflexivity].
      cbn [length] in HK. destruct k as [|k]; [lia|]. apply IH; [discriminate|auto|auto|cbn [length]; lia].
Qed.

Lemma joined_len : forall ls, (length ls <= S (length (joined ls)))%nat.
Proof.
  induction ls as [|l [|l2 r] IH]; [cbn [length]; lia|cbn [length]; lia|].
  change (joined (l :: l2 :: r)) with (l ++ 10 :: joined (l2 :: r)). rewrite app_length.
  change (length (10 :: joined (l2 :: r))) with (S (length (joined (l2 :: r)))).
  change (length (l :: l2 :: r)) with (S (length (l2 :: r))). lia.
Qed.
Lemma lines_exist : forall text, exists ls, ls <> [] /\ text = joined ls /\ Forall (fun l => ~ In 10 l) ls.
Proof.
  induction text as [|c t [ls [H1 [H2 H3]]]].
  - exists [[]]. split; [discriminate|]. split; [auto|]. constructor; [auto|constructor].
  - destruct (Z.eq_dec c 10) as [->|HC].
    + exists ([] :: ls). split; [discriminate|]. split; [destruct ls; [congruence|]; cbn [joined app] in *; congruence|].
      constructor; [auto|auto].
    + destruct ls as [|l ls]; [congruence|]. inversion H3; subst. exists ((c :: l) :: ls). split; [discriminate|].
      split; [destruct ls; reflexivity|]. constructor; [|auto]. intros [X|X]; [lia|contradiction].
Qed.
Lemma joined_small : forall ls, small_text (joined ls) -> Forall small_text ls.
Proof.
  induction ls as [|l [|l2 r] IH]; intros HL; [constructor|constructor; auto|].
  change (joined (l :: l2 :: r)) with (l ++ [10] ++ joined (l2 :: r)) in HL. constructor; [eapply small_app_l; eauto|].
  apply IH. do 2 apply small_app_r in HL. auto.
Qed.

Lemma fold_lines_iff : forall ls rs rs', Forall small_text ls -> (length rs <= 1024)%nat ->
  (fold_lines ls rs = Some rs' <-> exists new, lines_say realpath ls new /\ rs' = rs ++ new /\ (length rs' <= 1024)%nat).
Proof.
  induction ls as [|l ls IH]; intros rs rs' HS HM; cbn [fold_lines].
  - split.
    + intros E. injection E as <-. exists []. split; [constructor|]. rewrite app_nil_r. auto.
    + intros [new [H [-> _]]]. inversion H; subst. rewrite app_nil_r. auto.
  - inversion HS; subst. split.
    + destruct (parse_line realpath l rs) as [r1|] eqn:E; [|discriminate]. intros H. apply parse_line_iff in E; auto.
      destruct E as [o [HO [-> HQ]]]. destruct o as [ru|]; cbn [line_result add] in *.
      * apply IH in H; [|auto|rewrite app_length; cbn [length]; assert (length rs < 1024)%nat by (apply HQ; discriminate); lia].
        destruct H as [new [HA [-> HB]]]. exists (ru :: new). split; [apply say_rule; auto|]. rewrite <- app_assoc in HB |- *. split; [reflexivity|exact HB].
      * apply IH in H; auto. destruct H as [new [HA [-> HB]]]. exists new. split; [constructor; auto|auto].
    + intros [new [H [-> HB]]]. inversion H as [|l0 ls0 rs0 HA HC|l0 ls0 ru rs0 HA HC]; subst.
      * assert (E : parse_line realpath l rs = Some rs).
        { apply parse_line_iff; auto. exists None. split; [auto|]. split; [auto|congruence]. }
        rewrite E. apply IH; [auto|auto|]. exists new. split; [auto|]. split; [auto|lia].
      * rewrite app_length in HB. cbn [length] in HB.
        assert (E : parse_line realpath l rs = Some (rs ++ [ru])).
        { apply parse_line_iff; auto. exists (Some ru). split; [auto|]. split; [auto|lia]. }
        rewrite E. apply IH; [auto|rewrite app_length; cbn [length]; lia|]. exists rs0. split; [auto|].
        rewrite <- app_assoc. split; [auto|]. rewrite !app_length. cbn [length]. lia.
Qed.

Lemma parse_rules_iff : forall text rs, small_text text ->
  (parse_rules realpath text = Some rs <-> text_says realpath text rs).
Proof.
  intros text rs HL. assert (HG : forall ls, ls <> [] -> text = joined ls -> Forall (fun l => ~ In 10 l) ls ->
    parse_rules realpath text = fold_lines ls []).
  { intros ls H1 H2 H3. unfold parse_rules. subst text. apply parse_lines_joined; auto. apply joined_len. }
  split.
  - destruct (lines_exist text) as [ls [H1 [H2 H3]]]. rewrite (HG ls) by auto. intros H.
    apply fold_lines_iff in H; [|apply joined_small; rewrite <- H2; auto|cbn [length]; lia].
    destruct H as [new [HA [-> HB]]]. exists ls. auto.
  - intros (ls & H1 & H2 & H3 & H4). destruct ls as [|l ls].
    + cbn [joined] in H1. subst text. inversion H3; subst. reflexivity.
    + rewrite (HG (l :: ls)) by (auto; discriminate).
      apply fold_lines_iff; [apply joined_small; rewrite <- H1; auto|cbn [length]; lia|]. exists rs. auto.
Qed.
End Load.
