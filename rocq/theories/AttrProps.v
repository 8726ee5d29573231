(* Permission rules (C16, C46), attribute changes (C36, C47), new files (C48). *)
From Verif Require Import Base AttrModel.

(* ---- bits ---- *)
Lemma any_bit : forall m n, 0 <= n -> any m (2 ^ n) = Z.testbit m n.
Proof.
  intros m n Hn. unfold any. destruct (Z.testbit m n) eqn:T.
  - destruct (Z.eqb_spec (Z.land m (2 ^ n)) 0) as [E|]; [exfalso|reflexivity].
    assert (X : Z.testbit (Z.land m (2 ^ n)) n = true) by (rewrite Z.land_spec, T, Z.pow2_bits_true by lia; reflexivity).
    rewrite E, Z.bits_0 in X. discriminate.
  - replace (Z.land m (2 ^ n)) with 0; [reflexivity|]. symmetry. apply Z.bits_inj'. intros i Hi.
    rewrite Z.land_spec, Z.bits_0, Z.pow2_bits_eqb by lia. destruct (Z.eqb_spec n i) as [<-|]; [rewrite T|rewrite andb_false_r]; reflexivity.
Qed.
Lemma sub_bits : forall x m, Z.land x m = m <-> forall i, 0 <= i -> Z.testbit m i = true -> Z.testbit x i = true.
Proof.
  intros x m. split.
  - intros E i Hi T. rewrite <- E, Z.land_spec in T. apply andb_true_iff in T. tauto.
  - intros H. apply Z.bits_inj'. intros i Hi. rewrite Z.land_spec. destruct (Z.testbit m i) eqn:T; [rewrite (H i Hi T)|rewrite andb_false_r]; reflexivity.
Qed.
Lemma ldiff_bit : forall m n i, 0 <= n -> 0 <= i -> Z.testbit (Z.ldiff m (2 ^ n)) i = Z.testbit m i && negb (n =? i).
Proof. intros m n i Hn Hi. rewrite Z.ldiff_spec, Z.pow2_bits_eqb by lia. reflexivity. Qed.
Lemma land_two : forall m a b, 0 <= a -> 0 <= b -> (Z.land m (Z.lor (2 ^ a) (2 ^ b)) =? Z.lor (2 ^ a) (2 ^ b)) = Z.testbit m a && Z.testbit m b.
Proof.
  intros m a b Ha Hb. destruct (Z.eqb_spec (Z.land m (Z.lor (2 ^ a) (2 ^ b))) (Z.lor (2 ^ a) (2 ^ b))) as [E|N].
  - rewrite sub_bits in E. symmetry. apply andb_true_iff. split; apply E; auto; rewrite Z.lor_spec, Z.pow2_bits_true by lia; [reflexivity|apply orb_true_r].
  - symmetry. apply not_true_is_false. intros X. apply andb_true_iff in X. destruct X as [A B]. apply N. rewrite sub_bits.
    intros i Hi T. rewrite Z.lor_spec, !Z.pow2_bits_eqb in T by lia. apply orb_true_iff in T. destruct T as [T|T]; apply Z.eqb_eq in T; subst; auto.
Qed.

(* ---- C16: the rule of owner, group and others ---- *)
Inductive right := Rd | Wr | Ex.
Definition idx (r : right) : Z := match r with Rd => 2 | Wr => 1 | Ex => 0 end.
(* the caller's class: 6 owner, 3 group, 0 other; bit 6+2 is the owner's read bit and so on *)
Definition class_of (c : cred) (a : attrs) : Z := if c_uid c =? a_uid a then 6 else if c_gid c =? a_gid a then 3 else 0.
Definition holds (c : cred) (a : attrs) (r : right) : Prop :=
  if c_uid c =? 0
  then match r with Ex => isreg a = false \/ exists k, In k [0; 3; 6] /\ Z.testbit (a_mode a) k = true | _ => True end
  else Z.testbit (a_mode a) (class_of c a + idx r) = true.
Definition asks (mask : Z) (r : right) : Prop := Z.testbit mask (idx r) = true.

Lemma bit_cases : forall i, 0 <= i -> i = idx Ex \/ i = idx Wr \/ i = idx Rd \/ 3 <= i.
Proof. intros i H. cbn. lia. Qed.
Lemma small_bits : forall x i, 0 <= x < 8 -> 3 <= i -> Z.testbit x i = false.
Proof.
  intros x i Hx Hi. destruct (Z.eq_dec x 0) as [->|]; [apply Z.bits_0|]. apply Z.bits_above_log2; [lia|].
  assert (Z.log2 x < 3); [|lia]. apply Z.log2_lt_pow2; lia.
Qed.
Ltac bits := repeat match goal with
  | |- context [any ?m S_IRUSR] => change (any m S_IRUSR) with (any m (2 ^ 8)); rewrite (any_bit m 8) by lia
  | |- context [any ?m S_IWUSR] => change (any m S_IWUSR) with (any m (2 ^ 7)); rewrite (any_bit m 7) by lia
  | |- context [any ?m S_IXUSR] => change (any m S_IXUSR) with (any m (2 ^ 6)); rewrite (any_bit m 6) by lia
  | |- context [any ?m S_IRGRP] => change (any m S_IRGRP) with (any m (2 ^ 5)); rewrite (any_bit m 5) by lia
  | |- context [any ?m S_IWGRP] => change (any m S_IWGRP) with (any m (2 ^ 4)); rewrite (any_bit m 4) by lia
  | |- context [any ?m S_IXGRP] => change (any m S_IXGRP) with (any m (2 ^ 3)); rewrite (any_bit m 3) by lia
  | |- context [any ?m S_IROTH] => change (any m S_IROTH) with (any m (2 ^ 2)); rewrite (any_bit m 2) by lia
  | |- context [any ?m S_IWOTH] => change (any m S_IWOTH) with (any m (2 ^ 1)); rewrite (any_bit m 1) by lia
  | |- context [any ?m S_IXOTH] => change (any m S_IXOTH) with (any m (2 ^ 0)); rewrite (any_bit m 0) by lia
  end.
Lemma any_x : forall m, any m (Z.lor S_IXUSR (Z.lor S_IXGRP S_IXOTH)) = true <-> exists k, In k [0; 3; 6] /\ Z.testbit m k = true.
Proof.
  intros m. unfold any. rewrite negb_true_iff, Z.eqb_neq. split.
  - intros N. destruct (Z.testbit m 0) eqn:T0; [exists 0; cbn; auto|]. destruct (Z.testbit m 3) eqn:T3; [exists 3; cbn; auto|].
    destruct (Z.testbit m 6) eqn:T6; [exists 6; cbn; auto|]. exfalso. apply N. apply Z.bits_inj'. intros i Hi.
    rewrite Z.land_spec, Z.bits_0. change (Z.lor S_IXUSR (Z.lor S_IXGRP S_IXOTH)) with (Z.lor (2 ^ 6) (Z.lor (2 ^ 3) (2 ^ 0))).
    rewrite !Z.lor_spec, !Z.pow2_bits_eqb by lia.
    destruct (Z.eqb_spec 6 i) as [<-|]; [rewrite T6; reflexivity|]. destruct (Z.eqb_spec 3 i) as [<-|]; [rewrite T3; reflexivity|].
    destruct (Z.eqb_spec 0 i) as [<-|]; [rewrite T0; reflexivity|]. apply andb_false_r.
  - intros [k [Hk T]] E. assert (X : Z.testbit (Z.land m (Z.lor S_IXUSR (Z.lor S_IXGRP S_IXOTH))) k = true).
    { rewrite Z.land_spec, T. destruct Hk as [<-|[<-|[<-|[]]]]; reflexivity. }
    rewrite E, Z.bits_0 in X. discriminate.
Qed.
Lemma three_bits : forall r w x mask, 0 <= mask < 8 ->
  ((Z.land (Z.lor (if r : bool then R_OK else 0) (Z.lor (if w : bool then W_OK else 0) (if x : bool then X_OK else 0))) mask =? mask) = true
   <-> forall k, asks mask k -> match k with Rd => r | Wr => w | Ex => x end = true).
Proof.
  intros r w x mask Hm. rewrite Z.eqb_eq, sub_bits. unfold asks. split.
  - intros H k T. specialize (H (idx k) ltac:(destruct k; cbn; lia) T). destruct k, r, w, x; cbn in *; congruence.
  - intros H i Hi T. destruct (bit_cases i Hi) as [->|[->|[->|L]]].
    + specialize (H Ex T). cbn in H. subst. destruct r, w; reflexivity.
    + specialize (H Wr T). cbn in H. subst. destruct r, x; reflexivity.
    + specialize (H Rd T). cbn in H. subst. destruct w, x; reflexivity.
    + rewrite (small_bits mask i Hm L) in T. discriminate.
Qed.
Theorem access_exact : forall c a mask, 0 <= mask < 8 ->
  (do_access c a mask = Ok tt <-> forall r, asks mask r -> holds (fsc c) a r).
Proof.
  intros c a mask Hm. unfold do_access. cbv zeta.
  assert (X : forall b : bool, (if b then Ok tt else Er EACCES) = Ok tt <-> b = true) by (intros []; split; congruence).
  rewrite X. clear X. unfold holds, class_of. destruct (c_uid (fsc c) =? 0).
  - set (x := if isreg a then any (a_mode a) (Z.lor S_IXUSR (Z.lor S_IXGRP S_IXOTH)) else true).
    replace (Z.lor (Z.lor R_OK W_OK) (if isreg a then if any (a_mode a) (Z.lor S_IXUSR (Z.lor S_IXGRP S_IXOTH)) then X_OK else 0 else X_OK))
      with (Z.lor (if true then R_OK else 0) (Z.lor (if true then W_OK else 0) (if x then X_OK else 0)))
      by (unfold x; destruct (isreg a); [destruct (any _ _)|]; reflexivity).
    rewrite (three_bits true true x mask Hm). pose proof (any_x (a_mode a)) as Q. unfold x.
    split; intros H r Hr; specialize (H r Hr); destruct r; auto.
    + destruct (isreg a); [right; apply Q|left]; auto.
    + destruct (isreg a); auto. apply Q. destruct H; [discriminate|assumption].
  - destruct (c_uid (fsc c) =? a_uid a); [|destruct (c_gid (fsc c) =? a_gid a)]; bits; rewrite three_bits by assumption;
    split; intros H r Hr; specialize (H r Hr); destruct r; exact H.
Qed.
Print Assumptions access_exact.
Theorem access_unknown_bits_refused : forall c a mask i, 3 <= i -> Z.testbit mask i = true -> do_access c a mask = Er EACCES.
Proof.
  intros c a mask i Hi T. unfold do_access. cbv zeta.
  match goal with |- (if Z.land ?x mask =? mask then _ else _) = _ => assert (B : 0 <= x < 8) end.
  { destruct (c_uid (fsc c) =? 0); [|destruct (c_uid (fsc c) =? a_uid a); [|destruct (c_gid (fsc c) =? a_gid a)]];
    repeat match goal with |- context [if ?b then _ else _] => destruct b end; vm_compute; split; discriminate || reflexivity. }
  match goal with |- (if Z.land ?x mask =? mask then _ else _) = _ => set (y := x) in *; destruct (Z.eqb_spec (Z.land y mask) mask) as [E|]; [exfalso|reflexivity] end.
  rewrite sub_bits in E. specialize (E i ltac:(lia) T). rewrite (small_bits y i B Hi) in E. discriminate.
Qed.
Print Assumptions access_unknown_bits_refused.

Definition u1000 : creds := mkCreds (mkCred 1000 100 18) (mkCred 1000 100 18) (7, 7).
Definition root_ : creds := mkCreds (mkCred 0 0 18) (mkCred 0 0 18) (7, 7).
(* uid gid mode *)
Definition at_ (uid gid mode : Z) : attrs := mkAttrs 5 1 uid gid mode 0 10 10 1 1 0 1 1 (1, 1) (2, 2) (3, 3) (4, 4) (2, 2).
(* mode 0604: the group is denied what others are granted *)
Example access_exact_ex : do_access u1000 (at_ 1 100 (S_IFREG + 388)) R_OK = Er EACCES /\ do_access u1000 (at_ 1 1 (S_IFREG + 388)) R_OK = Ok tt
  /\ do_access root_ (at_ 1 1 (S_IFREG + 388)) X_OK = Er EACCES /\ do_access root_ (at_ 1 1 (S_IFREG + 389)) 7 = Ok tt
  /\ do_access u1000 (at_ 1 1 (S_IFREG + 511)) 8 = Er EACCES.
Proof. repeat split. Qed.

(* what an open asks for, from its access mode (the two low bits) *)
Definition reads (f : Z) : Prop := Z.testbit f 1 = true \/ Z.testbit f 0 = false.
Definition writes (f : Z) : Prop := Z.testbit f 1 = true \/ Z.testbit f 0 = true.
Lemma and_bit : forall f n, 0 <= n -> (Z.land f (2 ^ n) =? 2 ^ n) = Z.testbit f n.
Proof.
  intros f n Hn. rewrite <- (any_bit f n Hn). unfold any.
  assert (Z.land f (2 ^ n) = 0 \/ Z.land f (2 ^ n) = 2 ^ n).
  { destruct (Z.testbit f n) eqn:T; [right|left]; apply Z.bits_inj'; intros i Hi; rewrite Z.land_spec, ?Z.bits_0, Z.pow2_bits_eqb by lia;
    destruct (Z.eqb_spec n i) as [<-|]; rewrite ?T, ?andb_false_r; reflexivity. }
  assert (0 < 2 ^ n) by (apply Z.pow_pos_nonneg; lia).
  destruct H as [-> | ->]; [destruct (Z.eqb_spec 0 (2 ^ n)); [lia|reflexivity]|]. rewrite Z.eqb_refl. destruct (Z.eqb_spec (2 ^ n) 0); [lia|reflexivity].
Qed.
Lemma rwx_range : forall f, 0 <= o_flags_to_rwx f < 8.
Proof.
  intros f. unfold o_flags_to_rwx. cbv zeta.
  repeat match goal with |- context [if ?b then _ else _] => destruct b end; vm_compute; split; discriminate || reflexivity.
Qed.
Lemma rwx_asks : forall f, asks (o_flags_to_rwx f) Ex -> False.
Proof.
  intros f. unfold o_flags_to_rwx, asks. cbv zeta.
  repeat match goal with |- context [if ?b then _ else _] => destruct b end; discriminate.
Qed.
Lemma rwx_rd : forall f, reads f -> asks (o_flags_to_rwx f) Rd.
Proof.
  intros f. unfold o_flags_to_rwx, asks, reads. cbv zeta. change O_RDWR with (2 ^ 1). change O_WRONLY with (2 ^ 0). rewrite !and_bit by lia.
  intros [H|H]; rewrite H; [|destruct (Z.testbit f 1)]; destruct (any f O_TRUNC), (any f O_APPEND); reflexivity.
Qed.
Lemma rwx_wr : forall f, writes f \/ any f O_TRUNC = true \/ any f O_APPEND = true -> asks (o_flags_to_rwx f) Wr.
Proof.
  intros f. unfold o_flags_to_rwx, asks, writes. cbv zeta. change O_RDWR with (2 ^ 1). change O_WRONLY with (2 ^ 0). rewrite !and_bit by lia.
  intros [[H|H]|[H|H]]; rewrite H; repeat match goal with |- context [if ?b then _ else _] => destruct b end; reflexivity.
Qed.
Lemma rwx_wr_inv : forall f, asks (o_flags_to_rwx f) Wr -> writes f \/ any f O_TRUNC = true \/ any f O_APPEND = true.
Proof.
  intros f. unfold o_flags_to_rwx, asks, writes. cbv zeta. change O_RDWR with (2 ^ 1). change O_WRONLY with (2 ^ 0). rewrite !and_bit by lia.
  destruct (any f O_TRUNC), (any f O_APPEND), (Z.testbit f 1), (Z.testbit f 0); auto; discriminate.
Qed.
Lemma rwx_rd_inv : forall f, asks (o_flags_to_rwx f) Rd -> reads f.
Proof.
  intros f. unfold o_flags_to_rwx, asks, reads. cbv zeta. change O_RDWR with (2 ^ 1). change O_WRONLY with (2 ^ 0). rewrite !and_bit by lia.
  destruct (any f O_TRUNC), (any f O_APPEND), (Z.testbit f 1), (Z.testbit f 0); auto; discriminate.
Qed.
(* whoever gets a file open holds the rights it can be used with *)
Theorem open_only_with_rights : forall c a f full, check_open c a f full = Ok tt ->
  (isreg a = true \/ isfifo a = true) /\ (reads f -> holds (fsc c) a Rd) /\ (writes f \/ any f O_TRUNC = true -> holds (fsc c) a Wr).
Proof.
  intros c a f full. unfold check_open. destruct (isdir a); [discriminate|].
  destruct (negb (isreg a) && negb (isfifo a)) eqn:K; [discriminate|].
  destruct (check_open_flags a f); [|discriminate]. destruct (do_access c a (o_flags_to_rwx f)) as [[]|] eqn:A; [|discriminate].
  intros _. apply (access_exact c a _ (rwx_range f)) in A || (rewrite (access_exact c a _ (rwx_range f)) in A).
  split; [destruct (isreg a), (isfifo a); auto; discriminate|]. split.
  - intros H. apply A. apply rwx_rd. exact H.
  - intros H. apply A. apply rwx_wr. tauto.
Qed.
Print Assumptions open_only_with_rights.
(* and a plain open is given to everyone who holds them *)
Theorem open_granted : forall c a f, (isreg a = true \/ isfifo a = true) ->
  any f (Z.lor O_CREAT O_EXCL) = false -> any f O_DIRECTORY = false -> any f O_APPEND = false -> (any f O_TRUNC = true -> writes f) ->
  (reads f -> holds (fsc c) a Rd) -> (writes f -> holds (fsc c) a Wr) -> check_open c a f false = Ok tt.
Proof.
  intros c a f K N1 N2 N3 N4 HR HW. unfold check_open.
  assert (D : isdir a = false).
  { unfold isreg, isfifo, isdir in *. destruct K as [K|K]; apply Z.eqb_eq in K; rewrite K; reflexivity. }
  rewrite D. assert (K' : negb (isreg a) && negb (isfifo a) = false) by (destruct K as [-> | ->]; rewrite ?andb_false_r; reflexivity). rewrite K'.
  unfold check_open_flags. rewrite D, N1, N2. cbn [negb andb].
  assert (W : isreg a && any f O_TRUNC && negb (any f (Z.lor O_WRONLY O_RDWR)) = false).
  { destruct (any f O_TRUNC) eqn:T; [|rewrite andb_false_r; reflexivity]. apply andb_false_iff. right. apply negb_false_iff.
    unfold any. apply negb_true_iff, Z.eqb_neq. intros E. destruct (N4 eq_refl) as [B|B].
    - assert (X : Z.testbit (Z.land f (Z.lor O_WRONLY O_RDWR)) 1 = true) by (rewrite Z.land_spec, B; reflexivity). rewrite E in X. discriminate.
    - assert (X : Z.testbit (Z.land f (Z.lor O_WRONLY O_RDWR)) 0 = true) by (rewrite Z.land_spec, B; reflexivity). rewrite E in X. discriminate. }
  rewrite W. assert (A : do_access c a (o_flags_to_rwx f) = Ok tt); [|rewrite A; reflexivity].
  apply access_exact; [apply rwx_range|]. intros [] H.
  - apply HR. apply rwx_rd_inv. exact H.
  - apply HW. destruct (rwx_wr_inv _ H) as [|[T|T]]; [assumption|auto|congruence].
  - destruct (rwx_asks _ H).
Qed.
Print Assumptions open_granted.
Example open_granted_ex : check_open u1000 (at_ 1000 1 (S_IFREG + 384)) O_RDWR false = Ok tt /\ check_open u1000 (at_ 1 100 (S_IFREG + 416)) O_RDWR false = Er EACCES
  /\ check_open u1000 (at_ 1 100 (S_IFREG + 416)) 0 false = Ok tt.
Proof. repeat split. Qed.
(* a reader that only adds O_APPEND is refused: the file is readable by the caller, nothing is asked
   that needs write permission *)
Theorem append_reader_granted_refuted : exists c a, isreg a = true /\ holds (fsc c) a Rd /\ ~ writes O_APPEND /\ reads O_APPEND /\
  check_open c a 0 false = Ok tt /\ check_open c a O_APPEND false = Er EACCES.
Proof.
  exists u1000, (at_ 1 1 (S_IFREG + 292)). split; [reflexivity|]. split; [reflexivity|]. split.
  { unfold writes. cbn. intros [H|H]; discriminate. }
  split; [right; reflexivity|]. split; reflexivity.
Qed.
Print Assumptions append_reader_granted_refuted.
Theorem opendir_exact : forall c a f full, check_opendir c a f full = Ok tt <->
  isdir a = true /\ holds (fsc c) a Rd /\ full = false /\ any f O_DIRECT = false.
Proof.
  intros c a f full. unfold check_opendir. pose proof (access_exact c a R_OK ltac:(unfold R_OK; lia)) as A.
  destruct (isdir a); cbn [negb andb]; [|split; [discriminate|intuition discriminate]].
  assert (B : do_access c a R_OK = Ok tt <-> holds (fsc c) a Rd).
  { rewrite A. split; [intros H; apply H; reflexivity|]. intros H [] T; [exact H|discriminate..]. }
  destruct (do_access c a R_OK) as [[]|e].
  - destruct full, (any f O_DIRECT); split; intuition discriminate.
  - split; [discriminate|]. intros [_ [H _]]. apply B in H. discriminate.
Qed.
Print Assumptions opendir_exact.

(* ---- C46: changing a directory ---- *)
Definition sticky (d : attrs) : Prop := Z.testbit (a_mode d) 9 = true.
Definition owns (c : creds) (a : attrs) : Prop := c_uid (fsc c) = a_uid a.
Definition super (c : creds) : Prop := c_uid (host c) = 0.
(* the right to take a name of [a] away from [d] *)
Definition may_take (c : creds) (d a : attrs) : Prop := holds (fsc c) d Wr /\ (sticky d -> owns c d \/ owns c a \/ super c).
Lemma waccess : forall c ro d, check_dir_waccess c ro d = Ok tt <-> ro = false /\ isdir d = true /\ holds (fsc c) d Wr.
Proof.
  intros c ro d. unfold check_dir_waccess. pose proof (access_exact c d W_OK ltac:(unfold W_OK; lia)) as A.
  assert (B : do_access c d W_OK = Ok tt <-> holds (fsc c) d Wr).
  { rewrite A. split; [intros H; apply H; reflexivity|]. intros H [] T; [discriminate|exact H|discriminate]. }
  destruct ro; [split; [discriminate|intuition discriminate]|]. destruct (isdir d); cbn [negb]; [|split; [discriminate|intuition discriminate]].
  rewrite B. tauto.
Qed.
Lemma sticky_spec : forall c d a, check_sticky c d a = Ok tt <-> (sticky d -> owns c d \/ owns c a \/ super c).
Proof.
  intros c d a. unfold check_sticky, sticky, owns, super, isowner, host_root. change S_ISVTX with (2 ^ 9). rewrite any_bit by lia.
  destruct (Z.testbit (a_mode d) 9); cbn [negb]; [|split; [discriminate|auto]].
  destruct (Z.eqb_spec (c_uid (fsc c)) (a_uid d)); [split; auto|]. destruct (Z.eqb_spec (c_uid (fsc c)) (a_uid a)); [split; auto|].
  destruct (Z.eqb_spec (c_uid (host c)) 0); [split; auto|]. split; [discriminate|]. intros H. destruct (H eq_refl) as [|[|]]; contradiction.
Qed.
Theorem unlink_exact : forall c ro d a, may_unlink c ro d a = Ok tt <-> ro = false /\ isdir d = true /\ isdir a = false /\ may_take c d a.
Proof.
  intros c ro d a. unfold may_unlink, may_take. pose proof (waccess c ro d) as W. pose proof (sticky_spec c d a) as S.
  destruct (check_dir_waccess c ro d) as [[]|e].
  - destruct (check_sticky c d a) as [[]|e].
    + destruct (isdir a); split; [discriminate|intuition discriminate|..]; intuition.
    + split; [discriminate|]. intros [_ [_ [_ [_ H]]]]. apply S in H. discriminate.
  - split; [discriminate|]. intros [-> [D [_ [H _]]]]. assert (X : Er e = Ok tt) by (apply W; auto). discriminate.
Qed.
Print Assumptions unlink_exact.
Theorem rmdir_exact : forall c ro d a, may_rmdir c ro d a = Ok tt <-> ro = false /\ isdir d = true /\ isdir a = true /\ may_take c d a.
Proof.
  intros c ro d a. unfold may_rmdir, may_take. pose proof (waccess c ro d) as W. pose proof (sticky_spec c d a) as S.
  destruct (check_dir_waccess c ro d) as [[]|e].
  - destruct (isdir a); [|split; [discriminate|intuition discriminate]]. rewrite S. intuition.
  - split; [discriminate|]. intros [-> [D [_ [H _]]]]. assert (X : Er e = Ok tt) by (apply W; auto). discriminate.
Qed.
Print Assumptions rmdir_exact.
Lemma rename_at_spec : forall c ro d a, may_rename_at c ro d (Some a) = Ok tt <-> ro = false /\ isdir d = true /\ may_take c d a.
Proof.
  intros c ro d a. unfold may_rename_at, may_take. pose proof (waccess c ro d) as W. pose proof (sticky_spec c d a) as S.
  destruct (check_dir_waccess c ro d) as [[]|e]; [rewrite S; intuition|].
  split; [discriminate|]. intros [-> [D [H _]]]. assert (X : Er e = Ok tt) by (apply W; auto). discriminate.
Qed.
(* a rename takes a name away from the source directory and, when the target exists, from the target *)
Theorem rename_only_with_rights : forall c ro d a d' a', may_rename c ro d a d' a' = Ok tt ->
  ro = false /\ may_take c d a /\ match a' with Some x => may_take c d' x | None => holds (fsc c) d' Wr end.
Proof.
  intros c ro d a d' a'. unfold may_rename. pose proof (rename_at_spec c ro d a) as R. destruct (may_rename_at c ro d (Some a)) as [[]|]; [|discriminate].
  destruct R as [R _]. specialize (R eq_refl). destruct a' as [x|].
  - pose proof (rename_at_spec c ro d' x) as R'. destruct (may_rename_at c ro d' (Some x)) as [[]|]; [|discriminate]. destruct R' as [R' _]. specialize (R' eq_refl). tauto.
  - unfold may_rename_at. pose proof (waccess c ro d') as W. destruct (check_dir_waccess c ro d') as [[]|]; [|discriminate]. tauto.
Qed.
Print Assumptions rename_only_with_rights.
(* in a sticky directory nobody but the two owners and the superuser takes a name away *)
Theorem sticky_protects : forall c ro d a, sticky d -> c_uid (fsc c) <> a_uid d -> c_uid (fsc c) <> a_uid a -> c_uid (host c) <> 0 ->
  may_unlink c ro d a <> Ok tt /\ may_rmdir c ro d a <> Ok tt /\
  forall d' a', may_rename c ro d a d' a' <> Ok tt /\ (forall b, may_rename c ro d' b d (Some a) <> Ok tt).
Proof.
  intros c ro d a S N1 N2 N3. assert (X : ~ may_take c d a) by (intros [_ H]; destruct (H S) as [|[|]]; contradiction).
  split; [intros H; apply unlink_exact in H; tauto|]. split; [intros H; apply rmdir_exact in H; tauto|].
  intros d' a'. split; [intros H; apply rename_only_with_rights in H; tauto|]. intros b H. apply rename_only_with_rights in H. tauto.
Qed.
Print Assumptions sticky_protects.
(* /tmp: sticky, writable by all *)
Definition tmp_dir : attrs := at_ 0 0 (S_IFDIR + 1023).
Example sticky_ex : may_unlink u1000 false tmp_dir (at_ 1 1 (S_IFREG + 438)) = Er EPERM /\ may_unlink u1000 false tmp_dir (at_ 1000 1 (S_IFREG + 438)) = Ok tt
  /\ may_rename root_ false tmp_dir (at_ 1 1 (S_IFREG + 438)) tmp_dir (Some (at_ 2 2 (S_IFREG + 438))) = Ok tt.
Proof. repeat split. Qed.
(* removing a name does not ask for search permission on the directory *)
Theorem search_permission_needed_refuted : exists c d a, ~ holds (fsc c) d Ex /\ check_lookup c d = Er EACCES /\ may_unlink c false d a = Ok tt.
Proof.
  exists u1000, (at_ 1 1 (S_IFDIR + 6)), (at_ 2 2 (S_IFREG + 420)). split; [discriminate|]. split; reflexivity.
Qed.
Print Assumptions search_permission_needed_refuted.
(* a rename that the rules allow is refused: the replaced directory is measured by the sticky bit of
   the directory the source comes from *)
Theorem allowed_rename_granted_refuted : exists c d a d' x, may_take c d a /\ may_take c d' x /\ isdir d = true /\ isdir d' = true /\ isdir x = true /\
  may_rename c false d a d' (Some x) = Er EPERM.
Proof.
  exists u1000, tmp_dir, (at_ 1000 1 (S_IFDIR + 493)), (at_ 1 1 (S_IFDIR + 511)), (at_ 2 2 (S_IFDIR + 493)).
  split; [split; [reflexivity|intros _; right; left; reflexivity]|]. split; [split; [reflexivity|discriminate]|]. repeat split.
Qed.
Print Assumptions allowed_rename_granted_refuted.
