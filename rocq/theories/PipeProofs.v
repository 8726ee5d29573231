(* Pipes: what the calls keep. *)
From Verif Require Import Base AddrModel PipeModel PipeSpec.

(* the pipe has no more than the program knows of *)
Definition honest (p : pipe) : Prop := (length (k_q p) <= k_pend p)%nat.
Lemma skipn2 : forall a b (q : bytes), skipn b (skipn a q) = skipn (a + b) q.
Proof. induction a as [|a IH]; intros b q; [auto|]. destruct q as [|x q]; [cbn [skipn plus]; apply skipn_nil|]. cbn [skipn plus]. apply IH. Qed.
Lemma skipn_le : forall k (q : bytes), (length (skipn k q) <= length q)%nat.
Proof. intros k q. rewrite skipn_length. lia. Qed.
Lemma splice_to_honest : forall p len o, honest p -> honest (fst (splice_to_fd p len o)).
Proof.
  intros p len o H. unfold honest, splice_to_fd in *. destruct (is_open p); cbn [negb]; [|auto]. destruct o as [k|n]; cbn [fst k_q k_pend].
  - pose proof (skipn_le k (k_q p)). lia.
  - rewrite skipn_length. lia.
Qed.
Lemma vmsplice_to_honest : forall p len o, honest p -> honest (fst (vmsplice_to p len o)).
Proof.
  intros p len o H. unfold honest, vmsplice_to in *. destruct (is_open p); cbn [negb]; [|auto]. destruct o as [k|n]; cbn [fst k_q k_pend].
  - pose proof (skipn_le k (k_q p)). lia.
  - set (want := if Nat.ltb 0 (k_pend p) then len else 0%nat). set (m := Nat.min n (Nat.min want (length (k_q p)))).
    destruct (Nat.eqb m want && Nat.leb m (k_pend p)); cbn [fst k_q k_pend]; rewrite skipn_length; lia.
Qed.
Lemma copy_honest : forall p len o, honest p -> honest (fst (copy_to_buf p len o)).
Proof.
  intros p len o H. unfold honest, copy_to_buf in *. destruct (is_open p); cbn [negb]; [|auto]. destruct o as [k|n]; cbn [fst k_q k_pend].
  - pose proof (skipn_le k (k_q p)). lia.
  - destruct (Nat.leb (Nat.min (k_pend p) len) (length (k_q p))); cbn [fst k_q k_pend length]; [rewrite skipn_length|]; lia.
Qed.
Lemma flush_honest : forall p o, honest p -> honest (fst (flush_pipe p o)).
Proof. intros p o H. unfold flush_pipe. destruct (Nat.ltb 0 (k_pend p)); [apply splice_to_honest; auto|auto]. Qed.
Lemma called_honest : forall p c, honest p -> honest (called p c).
Proof.
  intros p c H. destruct c; cbn [called]; [|apply splice_to_honest; auto|apply vmsplice_to_honest; auto| |apply copy_honest; auto| |apply flush_honest; auto].
  - unfold splice_from_fd. destruct (is_open p); [|auto]. destruct o; [auto|]. cbn [negb]. destruct (Nat.leb (length msg) (Nat.min (pipe_avail p) len)); [|auto].
    cbn [kept]. unfold honest in *. cbn [k_q k_pend]. rewrite app_length. lia.
  - unfold vmsplice_from. destruct (is_open p); [|auto]. destruct o; [auto|]. cbn [negb kept]. unfold honest in *. cbn [k_q k_pend]. rewrite app_length. lia.
  - unfold append_buf. destruct (is_open p); [|auto]. destruct o; [auto|]. cbn [negb kept]. unfold honest in *. cbn [k_q k_pend]. rewrite app_length. lia.
Qed.
Lemma calls_honest : forall cs p, honest p -> honest (fold_left called cs p).
Proof. induction cs as [|c cs IH]; intros p H; [auto|]. cbn [fold_left]. apply IH. apply called_honest. auto. Qed.
Lemma flush_size : forall p o, k_size (fst (flush_pipe p o)) = k_size p.
Proof. intros p o. unfold flush_pipe, splice_to_fd. destruct (Nat.ltb 0 (k_pend p)); [|auto]. destruct (is_open p); [|auto]. destruct o; auto. Qed.

(* ---- requests ---- *)
Lemma copy_exact : forall p len n p' b, honest p -> k_pend p = length (k_q p) -> copy_to_buf p len (ODone n) = (p', Some b) ->
  b = firstn len (k_q p) /\ k_q p' = skipn len (k_q p) /\ k_pend p' = length (k_q p').
Proof.
  intros p len n p' b H E H1. unfold copy_to_buf in H1. destruct (is_open p); cbn [negb] in H1; [|discriminate]. rewrite E in H1.
  destruct (Nat.leb (Nat.min (length (k_q p)) len) (length (k_q p))) eqn:EL; [|discriminate]. injection H1 as <- <-. cbn [k_q k_pend].
  destruct (Nat.le_gt_cases len (length (k_q p))).
  - rewrite Nat.min_r by lia. rewrite skipn_length. auto.
  - rewrite Nat.min_l by lia. rewrite !firstn_all2, !skipn_all2 by lia. cbn [length]. auto with arith.
Qed.
Lemma copy_outcome : forall p len o p' b, copy_to_buf p len o = (p', Some b) -> exists n, o = ODone n.
Proof. intros p len o p' b H. destruct o as [k|n]; [|eauto]. unfold copy_to_buf in H. destruct (is_open p); discriminate. Qed.

Section Recv.
Variables (hlen : bytes -> nat) (large : bytes -> bool) (buffsize : nat).
Lemma copy_in_exact : forall p o1 o2 p' b, k_pend p = length (k_q p) -> hlen (firstn 80 (k_q p)) = length (k_q p) ->
  copy_in hlen large buffsize p o1 o2 = (p', Some b) ->
  (b = k_q p /\ k_q p' = [] /\ k_pend p' = 0%nat) \/
  (large b = true /\ b = firstn 80 (k_q p) /\ k_q p' = skipn 80 (k_q p) /\ k_pend p' = length (k_q p')).
Proof.
  intros p o1 o2 p' b E HL H. unfold copy_in in H. destruct (copy_to_buf p (Nat.min 80 (k_pend p)) o1) as [p1 [b1|]] eqn:E1; [|discriminate].
  destruct (copy_outcome _ _ _ _ _ E1) as [n ->]. apply copy_exact in E1; [|unfold honest; lia|auto]. destruct E1 as (B1 & Q1 & P1).
  assert (F : firstn (Nat.min 80 (k_pend p)) (k_q p) = firstn 80 (k_q p)).
  { rewrite E. destruct (Nat.le_gt_cases 80 (length (k_q p))); [rewrite Nat.min_l by lia; auto|]. rewrite Nat.min_r by lia. rewrite !firstn_all2 by lia. auto. }
  assert (G : skipn (Nat.min 80 (k_pend p)) (k_q p) = skipn 80 (k_q p)).
  { rewrite E. destruct (Nat.le_gt_cases 80 (length (k_q p))); [rewrite Nat.min_l by lia; auto|]. rewrite Nat.min_r by lia. rewrite !skipn_all2 by lia. auto. }
  rewrite F in B1. rewrite G in Q1. rewrite <- B1 in HL. rewrite HL in H.
  assert (LB : length b1 = Nat.min 80 (length (k_q p))) by (rewrite B1; apply firstn_length).
  replace (Nat.leb (length b1) (length (k_q p))) with true in H by (symmetry; apply Nat.leb_le; lia).
  remember (length (k_q p) - length b1)%nat as rem eqn:HR.
  destruct (negb (check_inhdr hlen buffsize b1 (length b1) (Nat.eqb rem 0))); [discriminate|].
  destruct (Nat.eqb rem 0) eqn:ER.
  - cbn [orb] in H. assert (p1 = p') by congruence. assert (b1 = b) by congruence. subst p' b. left. apply Nat.eqb_eq in ER. assert (length (k_q p) <= 80)%nat by lia.
    rewrite firstn_all2 in B1 by lia. rewrite skipn_all2 in Q1 by lia. rewrite P1, Q1. auto.
  - cbn [orb] in H. destruct (large b1) eqn:EG; [assert (p1 = p') by congruence; assert (b1 = b) by congruence; subst p' b; right; auto|].
    destruct (copy_to_buf p1 rem o2) as [p2 [b2|]] eqn:E2; [|discriminate]. destruct (copy_outcome _ _ _ _ _ E2) as [n2 ->].
    apply copy_exact in E2; [|unfold honest; lia|auto]. destruct E2 as (B2 & Q2 & P2).
    destruct (check_inhdr hlen buffsize b1 (length b1 + length b2) true); [|discriminate]. assert (p2 = p') by congruence. assert (b1 ++ b2 = b) by congruence. subst p' b. left.
    assert (RL : rem = length (skipn 80 (k_q p))) by (rewrite skipn_length; lia).
    rewrite Q1, RL in B2, Q2. rewrite firstn_all in B2. rewrite skipn_all in Q2. rewrite B1, B2, firstn_skipn. rewrite P2, Q2. auto.
Qed.
Lemma recv_exact : forall p msg o0 o1 o2 o3 p' b, honest p -> hlen (firstn 80 msg) = length msg ->
  recv_request hlen large buffsize p msg o0 o1 o2 o3 = (p', Some b) ->
  (b = msg /\ k_q p' = [] /\ k_pend p' = 0%nat) \/
  (large b = true /\ b = firstn 80 msg /\ k_q p' = skipn 80 msg /\ k_pend p' = length (k_q p')).
Proof.
  intros p msg o0 o1 o2 o3 p' b HP HL H. unfold recv_request in H. pose proof (flush_honest p o0 HP) as HF.
  destruct (flush_pipe p o0) as [p0 [x|]]; [|discriminate]. cbn [fst] in HF.
  destruct (Nat.ltb buffsize (k_size p0) || negb (Nat.eqb (k_pend p0) 0)) eqn:EG; [discriminate|]. apply orb_false_elim in EG. destruct EG as [_ EG].
  apply negb_false_iff, Nat.eqb_eq in EG. assert (Q0 : k_q p0 = []) by (unfold honest in HF; destruct (k_q p0); [auto|cbn [length] in HF; lia]).
  destruct (splice_from_fd p0 msg buffsize o1) as [p1|] eqn:ES; [|discriminate].
  assert (Q1 : k_q p1 = msg /\ k_pend p1 = length msg).
  { unfold splice_from_fd in ES. destruct (is_open p0); [|discriminate]. destruct o1; [discriminate|]. cbn [negb] in ES.
    destruct (Nat.leb (length msg) (Nat.min (pipe_avail p0) buffsize)); [|discriminate]. injection ES as <-. cbn [k_q k_pend]. rewrite Q0, EG. auto. }
  destruct Q1 as [Q1 P1]. apply copy_in_exact in H; rewrite ?Q1 in *; auto.
Qed.
End Recv.

(* ---- writes ---- *)
Lemma put_store : forall m d o b, put m d o b = store m d o b.
Proof. reflexivity. Qed.
Lemma store_same : forall m m' d o b, same_mem m m' -> same_mem (store m d o b) (store m' d o b).
Proof. intros m m' d o b H d' o'. unfold store. destruct ((d' =? d) && (o <=? o') && (o' <? o + Z.of_nat (length b))); auto. Qed.
Lemma placed_same : forall vs m m' D, same_mem m m' -> same_mem (placed m vs D) (placed m' vs D).
Proof. induction vs as [|v vs IH]; intros m m' D H; [auto|]. cbn [placed]. apply IH. apply store_same. auto. Qed.
(* one store of two parts *)
Lemma store_app : forall m d o a b, same_mem (store (store m d o a) d (o + Z.of_nat (length a)) b) (store m d o (a ++ b)).
Proof.
  intros m d o a b d' o'. unfold store. rewrite app_length, Nat2Z.inj_add. destruct (d' =? d) eqn:ED; cbn [andb]; [|auto].
  destruct (Z.ltb_spec o' (o + Z.of_nat (length a))) as [H1|H1]; destruct (Z.leb_spec o o') as [H2|H2]; cbn [andb].
  - replace (o + Z.of_nat (length a) <=? o') with false by lia. cbn [andb]. replace (o' <? o + (Z.of_nat (length a) + Z.of_nat (length b))) with true by lia.
    rewrite app_nth1 by lia. auto.
  - replace (o + Z.of_nat (length a) <=? o') with false by lia. cbn [andb]. auto.
  - replace (o + Z.of_nat (length a) <=? o') with true by lia. cbn [andb].
    replace (o' <? o + (Z.of_nat (length a) + Z.of_nat (length b))) with (o' <? o + Z.of_nat (length a) + Z.of_nat (length b)) by (f_equal; lia).
    destruct (o' <? o + Z.of_nat (length a) + Z.of_nat (length b)); [|auto]. rewrite app_nth2 by lia. f_equal. lia.
  - lia.
Qed.
Definition full (o : outcome) (n : nat) : Prop := match o with ODone k => (n <= k)%nat | OErr _ => True end.
Lemma extract_exact : forall p m v o p' m', k_pend p = length (k_q p) -> (v_len v <= length (k_q p))%nat ->
  (0 < v_fd v -> full o (v_len v)) -> extract p m v o = (p', Some m') ->
  m' = store m (if 0 <? v_fd v then v_fd v else 0) (if 0 <? v_fd v then v_off v else v_base v) (firstn (v_len v) (k_q p)) /\
  k_q p' = skipn (v_len v) (k_q p) /\ k_pend p' = length (k_q p').
Proof.
  intros p m v o p' m' E HL HO H. unfold extract in H. destruct (0 <? v_fd v) eqn:EF.
  - specialize (HO ltac:(lia)). unfold splice_to_fd in H. destruct (is_open p); cbn [negb] in H; [|discriminate]. destruct o as [k|n]; [discriminate|]. cbn [full] in HO.
    rewrite E in H. replace (Nat.min n (Nat.min (Nat.min (length (k_q p)) (v_len v)) (length (k_q p)))) with (v_len v) in H by lia.
    injection H as <- <-. cbn [k_q k_pend]. rewrite skipn_length. auto.
  - destruct (v_base v =? 0); cbn [negb] in H; [discriminate|]. unfold vmsplice_to in H. destruct (is_open p); cbn [negb] in H; [|discriminate].
    destruct o as [k|n]; [discriminate|]. rewrite E in H.
    assert (W : (if Nat.ltb 0 (length (k_q p)) then v_len v else 0%nat) = v_len v) by (destruct (Nat.ltb_spec 0 (length (k_q p))); lia). rewrite W in H.
    destruct (Nat.eqb_spec (Nat.min n (Nat.min (v_len v) (length (k_q p)))) (v_len v)) as [EM|EM]; cbn [andb] in H; [|discriminate]. rewrite EM in H.
    destruct (Nat.leb (v_len v) (length (k_q p))); [|discriminate]. injection H as <- <-. cbn [k_q k_pend]. rewrite skipn_length. auto.
Qed.
Definition fulls (vs : list iov) (os : list outcome) : Prop := Forall2 (fun v o => 0 < v_fd v -> full o (v_len v)) vs (firstn (length vs) os).
Lemma full_le : forall o n m, full o n -> (m <= n)%nat -> full o m.
Proof. intros o n m H1 H2. destruct o; cbn [full] in *; [auto|lia]. Qed.
Lemma sync_exact : forall vs p m cnt nwr max os p' m' k, k_pend p = length (k_q p) -> (total vs <= length (k_q p))%nat ->
  (no_short (total vs) os \/ Forall (fun v => v_fd v <= 0) vs) ->
  write_sync p m cnt nwr max vs os = (p', Some (m', k)) ->
  m' = placed m vs (k_q p) /\ k = (nwr + total vs)%nat /\ k_q p' = skipn (total vs) (k_q p) /\ k_pend p' = length (k_q p').
Proof.
  induction vs as [|v vs IH]; intros p m cnt nwr max os p' m' k E HT HO H; cbn [write_sync placed total] in *.
  - injection H as <- <- <-. rewrite skipn_O. rewrite Nat.add_0_r. auto.
  - destruct os as [|o os]; [discriminate|]. destruct (wri_check cnt nwr max v); cbn [negb] in H; [|discriminate].
    destruct (extract p m v o) as [p1 [m1|]] eqn:EX; [|discriminate]. apply extract_exact in EX; [|auto|lia|].
    2:{ intros X. destruct HO as [HO|HO]; [|apply Forall_inv in HO; lia]. apply full_le with (v_len v + total vs)%nat; [|lia]. apply Forall_inv in HO. auto. }
    destruct EX as (M1 & Q1 & P1). apply IH in H; [|auto|rewrite Q1, skipn_length; lia|].
    2:{ destruct HO as [HO|HO]; [left|right; inversion HO; auto]. apply Forall_inv_tail in HO. unfold no_short. eapply Forall_impl; [|exact HO]. intros x. cbv beta. destruct x; auto. intros; lia. }
    destruct H as (M2 & K2 & Q2 & P2). rewrite Q1 in *. rewrite <- M1. split; [auto|]. split; [lia|]. split; [|auto]. rewrite Q2, skipn2. auto.
Qed.
Lemma copy_iov_exact : forall vs p m nwr os p' m' k, k_pend p = length (k_q p) -> (total vs <= length (k_q p))%nat ->
  (no_short (total vs) os \/ Forall (fun v => v_fd v <= 0) vs) ->
  copy_iov p m nwr vs os = (p', Some (m', k)) ->
  m' = placed m vs (k_q p) /\ k = (nwr + total vs)%nat /\ k_q p' = skipn (total vs) (k_q p) /\ k_pend p' = length (k_q p').
Proof.
  induction vs as [|v vs IH]; intros p m nwr os p' m' k E HT HO H; cbn [copy_iov placed total] in *.
  - injection H as <- <- <-. rewrite skipn_O. rewrite Nat.add_0_r. auto.
  - destruct os as [|o os]; [discriminate|].
    destruct (extract p m v o) as [p1 [m1|]] eqn:EX; [|discriminate]. apply extract_exact in EX; [|auto|lia|].
    2:{ intros X. destruct HO as [HO|HO]; [|apply Forall_inv in HO; lia]. apply full_le with (v_len v + total vs)%nat; [|lia]. apply Forall_inv in HO. auto. }
    destruct EX as (M1 & Q1 & P1). apply IH in H; [|auto|rewrite Q1, skipn_length; lia|].
    2:{ destruct HO as [HO|HO]; [left|right; inversion HO; auto]. apply Forall_inv_tail in HO. unfold no_short. eapply Forall_impl; [|exact HO]. intros x. cbv beta. destruct x; auto. intros; lia. }
    destruct H as (M2 & K2 & Q2 & P2). rewrite Q1 in *. rewrite <- M1. split; [auto|]. split; [lia|]. split; [|auto]. rewrite Q2, skipn2. auto.
Qed.
Lemma merge_total : forall vs a, total (merge_from a vs) = total (a :: vs).
Proof.
  induction vs as [|v vs IH]; intros a; [auto|]. cbn [merge_from]. destruct (isfdseq a v); [|cbn [total]; rewrite IH; auto].
  rewrite IH. cbn [total grow_len v_len]. lia.
Qed.
Lemma merge_mem : forall vs a, Forall (fun v => v_fd v <= 0) (a :: vs) -> Forall (fun v => v_fd v <= 0) (merge_from a vs).
Proof.
  induction vs as [|v vs IH]; intros a H; [auto|]. cbn [merge_from]. pose proof (Forall_inv H) as H1. cbv beta in H1. unfold isfdseq. replace (0 <? v_fd a) with false by lia. cbn [andb].
  constructor; [auto|]. apply IH. inversion H; auto.
Qed.
Lemma firstn_skipn_app : forall a b (D : bytes), firstn (a + b) D = firstn a D ++ firstn b (skipn a D).
Proof.
  induction a as [|a IH]; intros b D; [auto|]. destruct D as [|x D]; [cbn [plus firstn skipn app]; rewrite firstn_nil; auto|].
  cbn [plus firstn skipn app]. rewrite IH. auto.
Qed.
Lemma merge_placed : forall vs a m D, (total (a :: vs) <= length D)%nat -> same_mem (placed m (merge_from a vs) D) (placed m (a :: vs) D).
Proof.
  induction vs as [|v vs IH]; intros a m D HT; [intros d o; auto|]. cbn [merge_from]. destruct (isfdseq a v) eqn:EI.
  - unfold isfdseq in EI. apply andb_prop in EI. destruct EI as [EI E4]. apply andb_prop in EI. destruct EI as [EI E3]. apply andb_prop in EI. destruct EI as [E1 E2].
    cbn [total] in HT. intros d o. rewrite IH by (cbn [total grow_len v_len]; lia). cbn [placed grow_len v_fd v_off v_len v_base]. rewrite E1, E2.
    assert (F : v_fd v = v_fd a) by lia. rewrite F. assert (O : v_off v = v_off a + Z.of_nat (v_len a)) by lia. rewrite O.
    rewrite <- skipn2. apply placed_same. intros d' o'. rewrite firstn_skipn_app.
    rewrite <- store_app. rewrite firstn_length, Nat.min_l by lia. auto.
  - change (placed m (a :: v :: vs) D) with (placed (store m (if 0 <? v_fd a then v_fd a else 0) (if 0 <? v_fd a then v_off a else v_base a) (firstn (v_len a) D)) (v :: vs) (skipn (v_len a) D)).
    change (placed m (a :: merge_from v vs) D) with (placed (store m (if 0 <? v_fd a then v_fd a else 0) (if 0 <? v_fd a then v_off a else v_base a) (firstn (v_len a) D)) (merge_from v vs) (skipn (v_len a) D)).
    apply IH. cbn [total] in *. rewrite skipn_length. lia.
Qed.

(* ---- replies ---- *)
Lemma ceil_prefix : forall vs len max, exists r, concat vs = concat (count_ceil vs len max) ++ r.
Proof.
  induction vs as [|b vs IH]; intros len max; [exists []; auto|]. cbn [count_ceil]. destruct (Nat.leb max len); [exists (concat (b :: vs)); auto|].
  destruct (IH (len + length b)%nat max) as [r E]. exists r. cbn [concat]. rewrite E, app_assoc. auto.
Qed.
Lemma vmfrom_prefix : forall p vs o p', vmsplice_from p vs o = Some p' -> exists b r, concat vs = b ++ r /\ k_q p' = k_q p ++ b /\ k_pend p' = (k_pend p + length b)%nat /\ k_size p' = k_size p.
Proof.
  intros p vs o p' H. unfold vmsplice_from in H. destruct (is_open p); [|discriminate]. destruct o as [k|n]; [discriminate|]. cbn [negb] in H. injection H as <-. cbn [k_q k_pend k_size].
  destruct (ceil_prefix vs 0 (pipe_avail p)) as [r E]. exists (firstn n (concat (count_ceil vs 0 (pipe_avail p)))), (skipn n (concat (count_ceil vs 0 (pipe_avail p))) ++ r).
  rewrite app_assoc, firstn_skipn. auto.
Qed.
Lemma chunks_all : forall fuel vs, (length vs <= fuel)%nat -> concat (map (@concat Z) (chunks fuel vs)) = concat vs.
Proof.
  induction fuel as [|f IH]; intros vs H; [destruct vs; [auto|cbn [length] in H; lia]|]. destruct vs as [|v vs]; [auto|].
  change (chunks (S f) (v :: vs)) with (firstn 48 (v :: vs) :: chunks f (skipn 48 (v :: vs))). cbn [map concat]. rewrite IH by (rewrite skipn_length; cbn [length] in *; lia).
  rewrite <- concat_app, firstn_skipn. auto.
Qed.
Lemma append_len : forall cs p os p', append_chunks p cs os = Some p' ->
  exists b, k_q p' = k_q p ++ b /\ k_pend p' = (k_pend p + length b)%nat /\ (length b <= length (concat (map (@concat Z) cs)))%nat /\
    (length b = length (concat (map (@concat Z) cs)) -> b = concat (map (@concat Z) cs)).
Proof.
  induction cs as [|c cs IH]; intros p os p' H; cbn [append_chunks] in H.
  - injection H as <-. exists []. rewrite app_nil_r. cbn [map concat length]. split; [auto|]. split; [lia|auto].
  - destruct os as [|o os]; [discriminate|]. destruct (vmsplice_from p c o) as [p1|] eqn:E1; [|discriminate]. apply vmfrom_prefix in E1.
    destruct E1 as (b1 & r1 & C1 & Q1 & P1 & _). apply IH in H. destruct H as (b2 & Q2 & P2 & L2 & X2). exists (b1 ++ b2).
    split; [rewrite Q2, Q1, app_assoc; auto|]. split; [rewrite P2, P1, app_length; lia|]. cbn [map concat]. rewrite C1, !app_length. split; [lia|].
    intros HL. assert (r1 = []) by (destruct r1; [auto|cbn [length] in HL; lia]). subst r1. rewrite app_nil_r. rewrite X2; [auto|cbn [length] in HL; lia].
Qed.
Lemma firstn_split : forall n (a b : bytes), exists r, a ++ b = firstn n (a ++ b) ++ r.
Proof. intros n a b. exists (skipn n (a ++ b)). rewrite firstn_skipn. auto. Qed.
Lemma flush_prefix : forall p o b, snd (flush_pipe p o) = Some b -> exists r, k_q p = b ++ r.
Proof.
  intros p o b H. unfold flush_pipe in H. destruct (Nat.ltb 0 (k_pend p)); [|injection H as <-; exists (k_q p); auto]. unfold splice_to_fd in H.
  destruct (is_open p); [|discriminate]. destruct o as [k|n]; [discriminate|]. cbn [negb snd] in H. injection H as <-.
  match goal with |- context [firstn ?m _] => exists (skipn m (k_q p)) end. rewrite firstn_skipn. auto.
Qed.
Lemma reply_taken : forall p hdr vs oh os ofl msg, k_q p = [] -> reply_read p hdr vs oh os ofl = Some msg ->
  length msg = (length hdr + length (concat vs))%nat -> msg = hdr ++ concat vs.
Proof.
  intros p hdr vs oh os ofl msg HQ H HL. unfold reply_read in H. destruct (append_buf p hdr oh) as [p1|] eqn:E1; [|discriminate].
  assert (Q1 : k_q p1 = firstn (k_size p) hdr).
  { unfold append_buf in E1. destruct (is_open p); [|discriminate]. destruct oh; [discriminate|]. cbn [negb] in E1. injection E1 as <-. cbn [k_q]. rewrite HQ. auto. }
  destruct (append_chunks p1 (chunks (length vs) vs) os) as [p2|] eqn:E2; [|discriminate]. apply append_len in E2. rewrite chunks_all in E2 by auto.
  destruct E2 as (b & Q2 & _ & L2 & X2). apply flush_prefix in H. destruct H as [r H]. rewrite Q2, Q1 in H.
  assert (LH : (length (firstn (k_size p) hdr) <= length hdr)%nat) by (rewrite firstn_length; lia).
  assert (LS : length (firstn (k_size p) hdr ++ b) = (length msg + length r)%nat) by (rewrite H, app_length; auto). rewrite app_length in LS.
  assert (r = []) by (destruct r; [auto|cbn [length] in LS; lia]). subst r. rewrite app_nil_r in H. rewrite <- H. cbn [length] in LS. rewrite X2 by lia. f_equal.
  apply firstn_all2. rewrite firstn_length in LS. rewrite firstn_length in LH. lia.
Qed.
Lemma ceil_all : forall vs len max, (len + length (concat vs) <= max)%nat -> concat (count_ceil vs len max) = concat vs.
Proof.
  induction vs as [|b vs IH]; intros len max H; [auto|]. cbn [count_ceil]. cbn [concat] in H. rewrite app_length in H. destruct (Nat.leb_spec max len) as [HM|HM].
  - cbn [concat]. assert (E : b ++ concat vs = []) by (apply length_zero_iff_nil; rewrite app_length; lia). rewrite E. auto.
  - cbn [concat]. rewrite IH by lia. auto.
Qed.
Lemma chunks_one : forall vs, vs <> [] -> (length vs <= 48)%nat -> chunks (length vs) vs = [vs].
Proof.
  intros vs HN HL. destruct vs as [|v vs]; [congruence|]. change (chunks (length (v :: vs)) (v :: vs)) with (firstn 48 (v :: vs) :: chunks (length vs) (skipn 48 (v :: vs))).
  rewrite firstn_all2 by auto. rewrite skipn_all2 by auto. destruct (length vs); auto.
Qed.
Lemma reply_whole : forall p hdr vs a n k, is_open p = true -> k_q p = [] -> k_pend p = 0%nat -> vs <> [] -> (length vs <= 48)%nat -> (0 < length hdr)%nat ->
  (length hdr + length (concat vs) <= k_size p)%nat -> (length (concat vs) <= n)%nat -> (length hdr + length (concat vs) <= k)%nat ->
  reply_read p hdr vs (ODone a) [ODone n] (ODone k) = Some (hdr ++ concat vs).
Proof.
  intros p hdr vs a n k HO HQ HP HN HL HH HS H1 H2. unfold reply_read, append_buf. rewrite HO. cbn [negb]. rewrite HQ, HP. rewrite firstn_all2 by lia. cbn [app plus].
  rewrite chunks_one by auto. cbn [append_chunks]. unfold vmsplice_from, is_open, pipe_avail. cbn [k_size k_pend k_q]. unfold is_open in HO. rewrite HO. cbn [negb].
  rewrite ceil_all by lia. rewrite firstn_all2 by lia. unfold flush_pipe. cbn [k_pend]. replace (Nat.ltb 0 (length hdr + length (concat vs))) with true by (symmetry; apply Nat.ltb_lt; lia).
  unfold splice_to_fd, is_open. cbn [k_size k_pend k_q]. rewrite HO. cbn [negb snd]. rewrite app_length. f_equal. apply firstn_all2. rewrite app_length. lia.
Qed.
Lemma vmfrom_le : forall p vs n p', vmsplice_from p vs (ODone n) = Some p' -> (length (k_q p') <= length (k_q p) + n)%nat.
Proof.
  intros p vs n p' H. unfold vmsplice_from in H. destruct (is_open p); [|discriminate]. cbn [negb] in H. injection H as <-. cbn [k_q]. rewrite app_length, firstn_length. lia.
Qed.
Lemma reply_short : forall p hdr vs oh n ofl msg, k_q p = [] -> vs <> [] -> (length vs <= 48)%nat ->
  reply_read p hdr vs oh [ODone n] ofl = Some msg -> (length msg <= length hdr + n)%nat.
Proof.
  intros p hdr vs oh n ofl msg HQ HN HL H. unfold reply_read in H. destruct (append_buf p hdr oh) as [p1|] eqn:E1; [|discriminate].
  assert (Q1 : k_q p1 = firstn (k_size p) hdr).
  { unfold append_buf in E1. destruct (is_open p); [|discriminate]. destruct oh; [discriminate|]. cbn [negb] in E1. injection E1 as <-. cbn [k_q]. rewrite HQ. auto. }
  rewrite chunks_one in H by auto. cbn [append_chunks] in H. destruct (vmsplice_from p1 vs (ODone n)) as [p2|] eqn:E2; [|discriminate].
  apply vmfrom_le in E2. apply flush_prefix in H. destruct H as [r H]. rewrite H, Q1, app_length, firstn_length in E2. lia.
Qed.
Lemma parts_sum : forall fuel page off len, 0 <= off < page -> 0 <= len -> len + off <= Z.of_nat fuel * page -> fold_right Z.add 0 (parts fuel page off len) = len.
Proof.
  induction fuel as [|f IH]; intros page off len HO HL HF; [cbn [parts fold_right]; lia|]. cbn [parts]. destruct (Z.leb_spec len 0); [cbn [fold_right]; lia|].
  cbv zeta. cbn [fold_right]. destruct (Z.le_gt_cases len (page - off)).
  - rewrite Z.min_l by lia. replace (len - len) with 0 by lia. destruct f; cbn [parts]; cbn [Z.leb Z.compare fold_right]; lia.
  - rewrite Z.min_r by lia. rewrite IH; [lia|lia|lia|]. rewrite Nat2Z.inj_succ in HF. nia.
Qed.
Lemma fold_app : forall a b, fold_right Z.add 0 (a ++ b) = fold_right Z.add 0 a + fold_right Z.add 0 b.
Proof. induction a as [|x a IH]; intros b; [auto|]. cbn [app fold_right]. rewrite IH. lia. Qed.
Lemma all_parts_sum : forall page vs, 0 < page -> Forall (fun v => 0 <= snd v) vs -> fold_right Z.add 0 (all_parts page vs) = fold_right Z.add 0 (map snd vs).
Proof.
  intros page. induction vs as [|v vs IH]; intros HP H; [auto|]. unfold all_parts in *. cbn [flat_map map fold_right]. rewrite fold_app, IH by (auto; inversion H; auto). f_equal.
  apply Forall_inv in H. pose proof (Z.mod_pos_bound (fst v) page HP) as HM. apply parts_sum; [auto|auto|].
  assert (0 <= snd v / page) by (apply Z.div_pos; lia). rewrite Z2Nat.id by lia. pose proof (Z.div_mod (snd v) page). pose proof (Z.mod_pos_bound (snd v) page HP). nia.
Qed.
(* ---- sizes ---- *)
Lemma pow2_div : forall a k, 0 <= k -> 0 <= a -> 2 ^ a / 2 ^ k * 2 ^ k = if k <=? a then 2 ^ a else 0.
Proof.
  intros a k HK HA. destruct (Z.leb_spec k a).
  - replace a with (a - k + k) by lia. rewrite Z.pow_add_r by lia. rewrite Z.div_mul by (apply Z.pow_nonzero; lia). auto.
  - rewrite Z.div_small; [auto|]. split; [apply Z.pow_nonneg; lia|]. apply Z.pow_lt_mono_r; lia.
Qed.
Lemma max_pow : forall k lim, 12 <= k <= 16 -> (forall l, lim = Some l -> 2 <= l) -> exists a, pipe_max (2 ^ k) lim = 2 ^ a /\ 0 <= a <= 21.
Proof.
  intros k lim HK HL. destruct lim as [l|]; cbn [pipe_max].
  - unfold pow2_up. specialize (HL l eq_refl). pose proof (Z.log2_nonneg (l - 1)). destruct (Z.le_gt_cases 21 (Z.log2 (l - 1) + 1)).
    + exists 21. split; [|lia]. apply Z.min_l. apply Z.pow_le_mono_r; lia.
    + exists (Z.log2 (l - 1) + 1). split; [|lia]. apply Z.min_r. apply Z.pow_le_mono_r; lia.
  - exists (4 + k). rewrite Z.pow_add_r by lia. split; [auto|lia].
Qed.
Lemma bufsize_max : forall k lim bs, 12 <= k <= 16 -> (forall l, lim = Some l -> 2 <= l) ->
  resolve_bufsize (2 ^ k) true lim = Some bs -> bs = pipe_max (2 ^ k) lim.
Proof.
  intros k lim bs HK HL H. destruct (max_pow k lim HK HL) as (a & EA & HA). unfold resolve_bufsize in H.
  assert (ES : pipe_size_of (2 ^ k) lim BUFSIZE_MAX = 2 ^ a).
  { unfold pipe_size_of. rewrite EA. unfold BUFSIZE_MAX. replace (2 ^ a <=? 2 ^ 21) with true; [auto|]. symmetry. apply Z.leb_le. apply Z.pow_le_mono_r; lia. }
  cbv beta zeta in H. rewrite ES in H. rewrite Z.min_l in H by (unfold BUFSIZE_MAX; apply Z.pow_le_mono_r; lia). rewrite pow2_div in H by lia.
  destruct (k <=? a); [|discriminate]. destruct ((2 ^ a <? 8192) || (BUFSIZE_MAX <? 2 ^ a)); [discriminate|]. congruence.
Qed.
