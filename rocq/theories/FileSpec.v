(* Triples for the functions of FileModel.v *)
From Verif Require Import Base AddrModel FileModel FileTree FileInv.

(* the lower layers never answer ENOENT for an object which a file refers to *)
Definition nof (s : st) : Prop := ~ In ENOENT (s_fail s).
Definition spec {A} (W : world) (m : M A) (Q : A -> world -> Prop) (E : Z -> world -> Prop) : Prop :=
  forall s, s_w s = W -> nof s ->
  match m s with
  | (s', Ok a) => nof s' /\ Q a (s_w s')
  | (s', Err e) => nof s' /\ E e (s_w s')
  | (s', Bad) => False
  end.
(* failing with a code other than ENOENT *)
Definition EW (R : world -> Prop) : Z -> world -> Prop := fun e W' => e <> ENOENT /\ R W'.

Lemma sp_ret : forall A W (a : A) (Q : A -> world -> Prop) E, Q a W -> spec W (ret a) Q E.
Proof. intros A W a Q E H s <- N. split; assumption. Qed.
Lemma sp_fail : forall A W e (Q : A -> world -> Prop) (E : Z -> world -> Prop), E e W -> spec W (@fail A e) Q E.
Proof. intros A W e Q E H s <- N. split; assumption. Qed.
Lemma sp_bind : forall A B W (m : M A) (k : A -> M B) Q Q' E,
  spec W m Q E -> (forall a W', Q a W' -> spec W' (k a) Q' E) -> spec W (bind m k) Q' E.
Proof.
  intros A B W m k Q Q' E H K s Hs N. unfold bind. specialize (H s Hs N).
  destruct (m s) as [s' [a|e|]]; [|exact H|exact H]. destruct H as [N' HQ]. exact (K a (s_w s') HQ s' eq_refl N').
Qed.
Lemma sp_conseq : forall A W (m : M A) (Q Q' : A -> world -> Prop) (E E' : Z -> world -> Prop),
  spec W m Q E -> (forall a W', Q a W' -> Q' a W') -> (forall e W', E e W' -> E' e W') -> spec W m Q' E'.
Proof.
  intros A W m Q Q' E E' H HQ HE s Hs N. specialize (H s Hs N). destruct (m s) as [s' [a|e|]]; [| |exact H].
  - destruct H. split; auto.
  - destruct H. split; auto.
Qed.
Lemma sp_may_fail : forall W, spec W may_fail (fun _ W' => W' = W) (EW (fun W' => W' = W)).
Proof.
  intros W s <- N. unfold may_fail. destruct (s_fail s) as [|e r] eqn:F; [split; [exact N|reflexivity]|].
  assert (N' : ~ In ENOENT r) by (intro X; apply N; rewrite F; right; exact X).
  destruct (e =? 0) eqn:E; cbn [s_w].
  - split; [exact N'|reflexivity].
  - split; [exact N'|]. split; [|reflexivity]. intro X. apply N. rewrite F. left. exact X.
Qed.
Lemma sp_the_ino : forall W i E, spec W (the_ino i) (fun f W' => W' = W /\ f = w_ino W i) E.
Proof. intros W i E s <- N. split; [exact N|]. split; reflexivity. Qed.
Lemma sp_put_ino : forall W i f E, spec W (put_ino i f) (fun _ W' => W' = set_ino W i f) E.
Proof. intros W i f E s <- N. split; [exact N|reflexivity]. Qed.
Lemma sp_the_node : forall W a n E, w_node W a = Some n -> spec W (the_node a) (fun x W' => W' = W /\ x = n) E.
Proof. intros W a n E H s <- N. unfold the_node. rewrite H. split; [exact N|]. split; reflexivity. Qed.
Lemma sp_put_node : forall W a n E, spec W (put_node a n) (fun _ W' => W' = set_node W a (Some n)) E.
Proof. intros W i f E s <- N. split; [exact N|reflexivity]. Qed.
Lemma sp_the_blk : forall W t a b E, w_blk W t a = Some b -> spec W (the_blk t a) (fun x W' => W' = W /\ x = b) E.
Proof. intros W t a b E H s <- N. unfold the_blk. rewrite H. split; [exact N|]. split; reflexivity. Qed.
Lemma sp_put_blk : forall W t a b E, spec W (put_blk t a b) (fun _ W' => W' = set_blk W t a b) E.
Proof. intros W t a b E s <- N. split; [exact N|reflexivity]. Qed.
Lemma sp_or_none : forall A W (m : M A) Q (E E' : Z -> world -> Prop) (Q' : option A -> world -> Prop),
  spec W m Q E -> (forall a W', Q a W' -> Q' (Some a) W') -> (forall W', E ENOENT W' -> Q' None W') ->
  (forall e W', e <> ENOENT -> E e W' -> E' e W') -> spec W (or_none m) Q' E'.
Proof.
  intros A W m Q E E' Q' H H1 H2 H3 s Hs N. specialize (H s Hs N). unfold or_none.
  destruct (m s) as [s' [a|e|]]; [| |exact H].
  - destruct H. split; auto.
  - destruct H. destruct (e =? ENOENT) eqn:X.
    + assert (e = ENOENT) by lia. subst e. split; auto.
    + split; [assumption|]. apply H3; [lia|assumption].
Qed.

(* steps of straight-line code *)
Ltac sp_ino := eapply sp_bind; [apply sp_the_ino|]; cbv beta; intros ? ? [-> ->].
Ltac sp_node H := eapply sp_bind; [apply (sp_the_node _ _ _ _ H)|]; cbv beta; intros ? ? [-> ->].
Ltac sp_blk H := eapply sp_bind; [apply (sp_the_blk _ _ _ _ _ H)|]; cbv beta; intros ? ? [-> ->].

(* ---- lower layers ---- *)

Lemma sp_mf : forall B W (k : unit -> M B) Q E, spec W (k tt) Q E -> (forall e, e <> ENOENT -> E e W) ->
  spec W (bind may_fail k) Q E.
Proof.
  intros B W k Q E H HE. eapply sp_bind.
  - eapply sp_conseq; [apply sp_may_fail| |].
    + intros a W' X. exact X.
    + intros e W' [N ->]. apply HE, N.
  - cbv beta. intros [] W' ->. exact H.
Qed.
Definition here (W : world) : Z -> world -> Prop := EW (fun W' => W' = W).
Lemma here_ok : forall W e, e <> ENOENT -> here W e W.
Proof. intros. split; [assumption|reflexivity]. Qed.

Lemma sp_claim_vspace : forall W t,
  spec W (claim_vspace t) (fun a W' => w_blk W t a = None /\ 0 <= a /\ exists d, W' = set_blk W t a (Some (mkBlk d 1 true)))
       (here W).
Proof.
  intros W t. unfold claim_vspace. apply sp_mf; [|apply here_ok].
  intros s <- N. destruct (s_new s) as [|[a d] r]; [split; [exact N|split; [discriminate|reflexivity]]|].
  destruct (w_blk (s_w s) t a) eqn:B; [split; [exact N|split; [discriminate|reflexivity]]|].
  destruct ((0 <=? a) && (a mod ltype_size t =? 0)) eqn:C.
  - split; [exact N|]. split; [exact B|]. split; [lia|]. exists d. reflexivity.
  - split; [exact N|split; [discriminate|reflexivity]].
Qed.
Lemma sp_spawn_ftnode : forall W n,
  spec W (spawn_ftnode n) (fun a W' => w_node W a = None /\ 0 <= a /\ W' = set_node W a (Some n)) (here W).
Proof.
  intros W n. unfold spawn_ftnode. apply sp_mf; [|apply here_ok].
  intros s <- N. destruct (s_new s) as [|[a d] r]; [split; [exact N|split; [discriminate|reflexivity]]|].
  destruct (w_node (s_w s) a) eqn:B; [split; [exact N|split; [discriminate|reflexivity]]|].
  destruct ((0 <=? a) && (a mod ltype_size LT_FTNODE =? 0)) eqn:C.
  - split; [exact N|]. split; [exact B|]. split; [lia|]. reflexivity.
  - split; [exact N|split; [discriminate|reflexivity]].
Qed.
Definition dec_ref (t : Z) (b : blk) : option blk :=
  if isdatabk t && (1 <? b_ref b) then Some (mkBlk (b_data b) (b_ref b - 1) (b_unwr b)) else None.
Lemma sp_reclaim : forall W t a b, w_blk W t a = Some b ->
  spec W (reclaim_vspace t a) (fun _ W' => W' = set_blk W t a (dec_ref t b)) (here W).
Proof.
  intros W t a b H. unfold reclaim_vspace. apply sp_mf; [|apply here_ok].
  sp_blk H. apply sp_put_blk.
Qed.
Lemma sp_addref : forall W t a b, w_blk W t a = Some b ->
  spec W (addref_vspace t a) (fun _ W' => W' = set_blk W t a (Some (mkBlk (b_data b) (b_ref b + 1) (b_unwr b)))) (here W).
Proof.
  intros W t a b H. unfold addref_vspace. apply sp_mf; [|apply here_ok].
  sp_blk H. apply sp_put_blk.
Qed.
Lemma sp_test_unwritten : forall W t a b, w_blk W t a = Some b ->
  spec W (test_unwritten t a) (fun v W' => W' = W /\ v = b_unwr b) (here W).
Proof.
  intros W t a b H. unfold test_unwritten. apply sp_mf; [|apply here_ok].
  sp_blk H. apply sp_ret. split; reflexivity.
Qed.
Lemma sp_set_unwritten : forall W v t a b, w_blk W t a = Some b ->
  spec W (set_unwritten v t a) (fun _ W' => W' = set_blk W t a (Some (mkBlk (b_data b) (b_ref b) v))) (here W).
Proof.
  intros W v t a b H. unfold set_unwritten. apply sp_mf; [|apply here_ok].
  sp_blk H. apply sp_put_blk.
Qed.
Lemma sp_test_last : forall W t a b, w_blk W t a = Some b ->
  spec W (test_last t a) (fun v W' => W' = W /\ v = (b_ref b =? 1)) (here W).
Proof.
  intros W t a b H. unfold test_last. apply sp_mf; [|apply here_ok].
  sp_blk H. apply sp_ret. split; reflexivity.
Qed.
Lemma sp_test_shared : forall W t a b, w_blk W t a = Some b ->
  spec W (test_shared t a) (fun v W' => W' = W /\ v = isdatabk t && (1 <? b_ref b)) (here W).
Proof.
  intros W t a b H. unfold test_shared. destruct (isdatabk t).
  - apply sp_mf; [|apply here_ok]. sp_blk H. apply sp_ret. split; reflexivity.
  - apply sp_ret. split; reflexivity.
Qed.
Lemma sp_stage_fileaf : forall W t a b, w_blk W t a = Some b ->
  spec W (stage_fileaf t a) (fun v W' => W' = W /\ v = b) (here W).
Proof.
  intros W t a b H. unfold stage_fileaf. apply sp_mf; [|apply here_ok]. apply sp_the_blk, H.
Qed.
Lemma sp_stage_node : forall W i t a n, w_node W a = Some n -> n_ino n = i -> 2 <= n_height n <= 5 ->
  spec W (stage_node i (Some (t, a))) (fun v W' => W' = W /\ v = a) (here W).
Proof.
  intros W i t a n H I Hh. unfold stage_node. apply sp_mf; [|apply here_ok].
  sp_node H. rewrite I, Z.eqb_refl. cbn [negb].
  replace ((n_height n <? 2) || (16 <? n_height n)) with false by lia. apply sp_ret. split; reflexivity.
Qed.
