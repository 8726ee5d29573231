From Verif Require Import Base PassModel PassSpec.
Lemma skip_iff : forall c, isskip c = true <-> blank c.
Proof. intros c. unfold isskip, isspace, blank. lia. Qed.
Lemma ok_iff : forall c, char_ok c = true <-> 33 <= c <= 126.
Proof. intros c. unfold char_ok, isspace. cbv zeta. lia. Qed.
Lemma front_split : forall l, exists a, l = a ++ skip_front l /\ Forall blank a.
Proof.
  induction l as [|c l IH]; [exists []; auto|]. cbn [skip_front]. destruct (isskip c) eqn:E; [|exists []; auto].
  destruct IH as (a & E1 & F). exists (c :: a). cbn [app]. rewrite <- E1. split; [auto|]. constructor; [apply skip_iff; auto|auto].
Qed.
Lemma front_app : forall a l, Forall blank a -> skip_front (a ++ l) = skip_front l.
Proof. induction a as [|c a IH]; intros l H; [auto|]. cbn [app skip_front]. replace (isskip c) with true by (symmetry; apply skip_iff; exact (Forall_inv H)). apply IH. exact (Forall_inv_tail H). Qed.
Lemma front_ok : forall c l, 33 <= c <= 126 -> skip_front (c :: l) = c :: l.
Proof. intros c l H. cbn [skip_front]. destruct (isskip c) eqn:E; [|auto]. apply skip_iff in E. unfold blank in E. lia. Qed.
Lemma parse_iff : forall t p, parse_dup t = Some p <-> says t p.
Proof.
  intros t p. unfold parse_dup. cbv zeta. split.
  - intros H. destruct (Nat.eqb_spec (length (skip_back (skip_front t))) 0) as [E|E]; [discriminate|]. destruct (Nat.ltb_spec 255 (length (skip_back (skip_front t)))) as [E2|E2]; [discriminate|].
    destruct (forallb char_ok (skip_back (skip_front t))) eqn:E3; [|discriminate]. assert (EP : skip_back (skip_front t) = p) by congruence. rewrite EP in *.
    destruct (front_split t) as (a & EA & FA). destruct (front_split (rev (skip_front t))) as (b & EB & FB). exists a, (rev b). split; [|split; [auto|split; [apply Forall_rev; auto|]]].
    + rewrite EA at 1. f_equal. rewrite <- (rev_involutive (skip_front t)), EB, rev_app_distr. unfold skip_back in EP. rewrite EP. auto.
    + split; [intros ->; apply E; auto|]. split; [auto|]. apply Forall_forall. intros c HC. rewrite forallb_forall in E3. apply ok_iff. auto.
  - intros (a & b & -> & FA & FB & HN & HL & HF). rewrite front_app by auto.
    assert (ES : skip_back (skip_front (p ++ b)) = p).
    { destruct p as [|c p]; [congruence|]. cbn [app]. rewrite front_ok by exact (Forall_inv HF). unfold skip_back. change (c :: p ++ b) with ((c :: p) ++ b). rewrite rev_app_distr, front_app by (apply Forall_rev; auto).
      assert (HR : Forall (fun c => 33 <= c <= 126) (rev (c :: p))) by (apply Forall_rev; auto). assert (NR : rev (c :: p) <> []) by (intros X; apply (f_equal (@length Z)) in X; rewrite rev_length in X; discriminate).
      destruct (rev (c :: p)) as [|d r] eqn:ER; [congruence|]. rewrite front_ok by exact (Forall_inv HR). rewrite <- ER. apply rev_involutive. }
    rewrite ES. destruct (Nat.eqb_spec (length p) 0) as [E|E]; [destruct p; [congruence|discriminate]|]. replace (Nat.ltb 255 (length p)) with false by (symmetry; apply Nat.ltb_ge; auto).
    replace (forallb char_ok p) with true; [auto|]. symmetry. apply forallb_forall. intros c HC. apply ok_iff. rewrite Forall_forall in HF. auto.
Qed.
Lemma read_front : forall f bsz o f' b, sys_read f bsz o = (f', Some b) -> f_data f = b ++ f_data f' /\ f_kind f' = f_kind f /\ f_size f' = f_size f /\ f_echo f' = f_echo f.
Proof. intros f bsz o f' b H. unfold sys_read in H. destruct o; [discriminate|]. cbv zeta in H. injection H as <- <-. cbn [f_data f_kind f_size f_echo]. rewrite firstn_skipn. auto. Qed.
Lemma read_none : forall f bsz o f', sys_read f bsz o = (f', None) -> f' = f.
Proof. intros f bsz o f' H. unfold sys_read in H. destruct o; [congruence|discriminate]. Qed.
Lemma fd_front : forall f bsz u f' b, read_fd f bsz u = (f', Some b) -> f_data f = b ++ f_data f' /\ f_kind f' = f_kind f /\ f_size f' = f_size f.
Proof.
  intros f bsz u f' b H. unfold read_fd in H. destruct (sys_read f bsz (u_rd1 u)) as [f1 [b1|]] eqn:E1; [|discriminate]. destruct (read_front _ _ _ _ _ E1) as (A1 & A2 & A3 & _).
  destruct (Nat.eqb (length b1) 0); [discriminate|]. destruct (Nat.eqb (length b1) bsz); [|injection H as <- <-; auto].
  destruct (sys_read f1 1 (u_rd2 u)) as [f2 [c|]] eqn:E2.
  - destruct (read_front _ _ _ _ _ E2) as (B1 & B2 & B3 & _). destruct c as [|c0 c]; [|cbn [length Nat.ltb Nat.leb] in H; discriminate]. cbn [length] in H. change (Nat.ltb 0 0) with false in H. injection H as <- <-. cbn [app] in B1. rewrite <- B1. split; [auto|]. split; congruence.
  - apply read_none in E2. subst f2. injection H as <- <-. auto.
Qed.
Lemma line_nl : forall l r, ~ In 10 l -> line (l ++ 10 :: r) = l ++ [10].
Proof. induction l as [|c l IH]; intros r H; [auto|]. cbn [app line]. destruct (Z.eqb_spec c 10) as [E|E]; [destruct H; left; auto|]. rewrite IH; [auto|]. intros HI. apply H. right. auto. Qed.
Lemma line_front : forall l, exists r, l = line l ++ r.
Proof. induction l as [|c l [r IH]]; [exists []; auto|]. cbn [line]. destruct (c =? 10); [exists l; auto|]. exists r. cbn [app]. rewrite <- IH. auto. Qed.
Lemma line_last : forall l n, last (firstn n (line l)) 0 = 10 -> firstn n (line l) = line l.
Proof.
  induction l as [|c l IH]; intros n H; [apply firstn_nil|]. cbn [line] in *. destruct (c =? 10) eqn:E.
  - destruct n; [discriminate|]. cbn [firstn]. rewrite firstn_nil. auto.
  - destruct n as [|n]; [discriminate|]. cbn [firstn] in *. f_equal. apply IH. destruct (firstn n (line l)) as [|d r]; [cbn [last] in H; lia|]. exact H.
Qed.
