(* Changes of attributes (C36), the setattr request (C47), attributes of new files (C48). *)
From Verif Require Import Base AttrModel AttrProps.

(* ---- C36: what a request may change ---- *)
Inductive field := FIno | FMode | FNlink | FUid | FGid | FRdev | FSize | FBlocks | FAtime | FMtime | FCtime | FBtime | FGen.
Definition same (f : field) (s s' : stat) : Prop :=
  match f with
  | FIno => st_ino s = st_ino s' | FMode => st_mode s = st_mode s' | FNlink => st_nlink s = st_nlink s'
  | FUid => st_uid s = st_uid s' | FGid => st_gid s = st_gid s' | FRdev => st_rdev s = st_rdev s'
  | FSize => st_size s = st_size s' | FBlocks => st_blocks s = st_blocks s' | FAtime => st_atime s = st_atime s'
  | FMtime => st_mtime s = st_mtime s' | FCtime => st_ctime s = st_ctime s' | FBtime => st_btime s = st_btime s' | FGen => st_gen s = st_gen s'
  end.
Definition only (l : list field) (a a' : attrs) : Prop := forall f, ~ In f l -> same f (stat_of a) (stat_of a').
(* a requested time: now, leave, or the given one *)
Definition stamped (req now old new : ts) : Prop :=
  (snd req = UTIME_NOW -> new = now) /\ (snd req = UTIME_OMIT -> new = old) /\
  (snd req <> UTIME_NOW -> snd req <> UTIME_OMIT -> new = req).
Lemma Ok_inj : forall (A : Type) (x y : A), Ok x = Ok y -> y = x.
Proof. intros A x y H. injection H as H. symmetry. exact H. Qed.
Lemma pick_stamped : forall t c old, stamped t (c_now c) old (pick t c old).
Proof.
  intros t c old. unfold stamped, pick. repeat split.
  - intros ->. reflexivity.
  - intros ->. reflexivity.
  - intros N1 N2. destruct (Z.eqb_spec (snd t) UTIME_NOW); [contradiction|]. destruct (Z.eqb_spec (snd t) UTIME_OMIT); [contradiction|reflexivity].
Qed.
Ltac flags := repeat match goal with
  | |- context [any ?x ?y] => let r := eval vm_compute in (any x y) in match r with true => idtac | false => idtac end; change (any x y) with r
  | |- context [Z.ldiff ?x ?y =? 0] => let r := eval vm_compute in (Z.ldiff x y =? 0) in match r with true => idtac | false => idtac end; change (Z.ldiff x y =? 0) with r
  end; cbv iota.
Ltac upd := unfold update_itimes, update_attr, iattr_with, all_now;
  cbn [ia_flags ia_parent ia_size ia_span ia_nlink ia_blocks ia_mode ia_uid ia_gid ia_bt ia_at ia_mt ia_ct t_a t_b t_c t_m]; cbv zeta; flags.
Ltac proj := cbn [a_ino a_parent a_uid a_gid a_mode a_flags a_size a_span a_blocks a_nlink a_rdev a_gen a_rev a_btime a_atime a_mtime a_ctime a_lazy].
Ltac only_tac := intros f Hf; destruct f; try (exfalso; apply Hf; cbn; tauto); cbn; try reflexivity.

Lemma kill_bits : forall fl m, kill_suid_sgid fl m =
  let m1 := if any fl IA_KILL_SUID then Z.ldiff m (2 ^ 11) else m in
  if any fl IA_KILL_SGID && (Z.testbit m 10 && Z.testbit m 3) then Z.ldiff m1 (2 ^ 10) else m1.
Proof.
  intros fl m. unfold kill_suid_sgid. cbv zeta. change (Z.lor S_ISGID S_IXGRP) with (Z.lor (2 ^ 10) (2 ^ 3)). rewrite land_two by lia.
  change S_ISUID with (2 ^ 11). change S_ISGID with (2 ^ 10). rewrite any_bit by lia.
  assert (E : (if any fl IA_KILL_SUID && Z.testbit m 11 then Z.ldiff m (2 ^ 11) else m) = (if any fl IA_KILL_SUID then Z.ldiff m (2 ^ 11) else m)).
  { destruct (any fl IA_KILL_SUID); [|reflexivity]. destruct (Z.testbit m 11) eqn:T; [reflexivity|]. cbn [andb]. apply Z.bits_inj'. intros i Hi.
    rewrite ldiff_bit by lia. destruct (Z.eqb_spec 11 i) as [<-|]; [rewrite T|rewrite andb_true_r]; reflexivity. }
  rewrite E. reflexivity.
Qed.

Definition type_kept (mode : Z) (a : attrs) : Prop := fmt mode = 0 \/ fmt mode = fmt (a_mode a).
Theorem chmod_allowed : forall c a parent mode t, (exists a', do_chmod c a parent mode t = Ok a') <->
  type_kept mode a /\ (owns c a \/ super c) /\
  (isdir a = true -> a_ino a <> INO_ROOT -> exists p, parent = Some p /\ isdir p = true /\ holds (fsc c) p Ex).
Proof.
  intros c a parent mode t. unfold do_chmod, check_chmod, check_xaccess_parent, type_kept, owns, super, isowner, host_root.
  assert (P : (if negb (isdir a) || (a_ino a =? INO_ROOT) then Ok tt else match parent with None => Er EFAIL | Some p => if isdir p then do_access c p X_OK else Er EFAIL end) = Ok tt <->
              (isdir a = true -> a_ino a <> INO_ROOT -> exists p, parent = Some p /\ isdir p = true /\ holds (fsc c) p Ex)).
  { destruct (isdir a); cbn [negb orb]; [|split; [discriminate|reflexivity]].
    destruct (Z.eqb_spec (a_ino a) INO_ROOT); [split; [contradiction|reflexivity]|]. destruct parent as [p|].
    - pose proof (access_exact c p X_OK ltac:(unfold X_OK; lia)) as A. destruct (isdir p) eqn:D.
      + rewrite A. split.
        * intros H _ _. exists p. repeat split; [exact D|]. apply H. reflexivity.
        * intros H. destruct (H eq_refl n) as [q [[= <-] [_ Hx]]]. intros [] T; [discriminate..|exact Hx].
      + split; [discriminate|]. intros H. destruct (H eq_refl n) as [q [[= <-] [Dq _]]]. congruence.
    - split; [discriminate|]. intros H. destruct (H eq_refl n) as [q [X _]]. discriminate. }
  destruct (Z.eqb_spec (fmt mode) 0) as [E1|E1], (Z.eqb_spec (fmt (a_mode a)) (fmt mode)) as [E2|E2]; cbn [orb];
    try (split; [intros [? ?]; discriminate|]; intros [[H|H] _]; [contradiction|congruence]);
  destruct (Z.eqb_spec (c_uid (fsc c)) (a_uid a)) as [E3|E3];
    try destruct (Z.eqb_spec (c_uid (host c)) 0) as [E4|E4];
    try (split; [intros [? ?]; discriminate|]; intros [_ [[H|H] _]]; contradiction);
  (destruct (if negb (isdir a) || (a_ino a =? INO_ROOT) then _ else _) as [[]|e];
   [split; [intros _; destruct P as [P _]; specialize (P eq_refl); auto|intros _; eexists; reflexivity]
   |split; [intros [? ?]; discriminate|intros [_ [_ H]]; apply P in H; discriminate]]).
Qed.
Print Assumptions chmod_allowed.
Theorem chmod_effect : forall c a parent mode t a', do_chmod c a parent mode t = Ok a' ->
  only [FMode; FCtime] a a' /\ stamped (t_c t) (c_now c) (a_ctime a) (a_ctime a') /\ fmt (a_mode a') = fmt (a_mode a) /\
  (* the nine permission bits, sticky and set-user-id are as asked *)
  (forall i, 0 <= i < 12 -> i <> 10 -> Z.testbit (a_mode a') i = Z.testbit mode i) /\
  (* set-group-id too, unless the caller is outside the group and the file is executable by it *)
  Z.testbit (a_mode a') 10 = Z.testbit mode 10 && ((a_gid a =? c_gid (fsc c)) || (c_uid (fsc c) =? 0) || negb (Z.testbit mode 3)).
Proof.
  intros c a parent mode t a'. unfold do_chmod. destruct (check_chmod c a mode); [|discriminate]. destruct (check_xaccess_parent c a parent); [|discriminate].
  cbv zeta. set (m := Z.lor (Z.land (a_mode a) S_IFMT) (Z.ldiff mode S_IFMT)). set (K := negb (a_gid a =? c_gid (fsc c)) && negb (c_uid (fsc c) =? 0)).
  intros X0; apply Ok_inj in X0; subst a'. cbn [ia_flags iattr_with].
  assert (LO : forall i, 0 <= i < 12 -> Z.testbit m i = Z.testbit mode i).
  { intros i Hi. unfold m. rewrite Z.lor_spec, Z.land_spec, Z.ldiff_spec. assert (X : Z.testbit S_IFMT i = false).
    { unfold S_IFMT. change 61440 with (Z.shiftl 15 12). apply Z.shiftl_spec_low. lia. } rewrite X, andb_false_r. cbn. apply andb_true_r. }
  assert (FM : fmt m = fmt (a_mode a)).
  { unfold fmt, m. apply Z.bits_inj'. intros i Hi. rewrite !Z.land_spec, Z.lor_spec, Z.land_spec, Z.ldiff_spec. destruct (Z.testbit S_IFMT i), (Z.testbit (a_mode a) i), (Z.testbit mode i); reflexivity. }
  assert (FK : forall n, n < 12 -> 0 <= n -> forall x, fmt (Z.ldiff x (2 ^ n)) = fmt x).
  { intros n Hn1 Hn2 x. unfold fmt. apply Z.bits_inj'. intros i Hi. rewrite !Z.land_spec, ldiff_bit by lia. destruct (Z.eqb_spec n i) as [<-|]; [|rewrite andb_true_r; reflexivity].
    assert (X : Z.testbit S_IFMT n = false) by (unfold S_IFMT; change 61440 with (Z.shiftl 15 12); apply Z.shiftl_spec_low; lia). rewrite X, !andb_false_r. reflexivity. }
  assert (KE : K = negb ((a_gid a =? c_gid (fsc c)) || (c_uid (fsc c) =? 0))) by (unfold K; rewrite negb_orb; reflexivity).
  destruct K; upd; proj; rewrite kill_bits; flags; cbn [andb]; cbv zeta.
  - rewrite (LO 10), (LO 3) by lia. apply (f_equal negb) in KE. rewrite negb_involutive in KE. rewrite <- KE. cbn [negb orb].
    split; [only_tac|]. split; [apply pick_stamped|]. destruct (Z.testbit mode 10) eqn:T10; cbn [andb]; [destruct (Z.testbit mode 3) eqn:T3|].
    + split; [rewrite FK by lia; exact FM|]. split; [|rewrite ldiff_bit by lia; cbn; apply andb_false_r].
      intros i Hi N. rewrite ldiff_bit by lia. destruct (Z.eqb_spec 10 i); [lia|]. rewrite andb_true_r. apply LO. lia.
    + split; [exact FM|]. split; [intros i Hi _; apply LO; lia|]. rewrite LO by lia. exact T10.
    + split; [exact FM|]. split; [intros i Hi _; apply LO; lia|]. rewrite LO by lia. exact T10.
  - apply (f_equal negb) in KE. rewrite negb_involutive in KE. rewrite <- KE. cbn [negb orb].
    split; [only_tac|]. split; [apply pick_stamped|]. split; [exact FM|]. split; [intros i Hi _; apply LO; lia|]. rewrite LO by lia. symmetry. apply andb_true_r.
Qed.
Print Assumptions chmod_effect.
Example chmod_ex : exists a', do_chmod u1000 (at_ 1000 5 (S_IFREG + 420)) None (S_ISGID + 509) all_now = Ok a' /\ a_mode a' = S_IFREG + 509 /\ a_ctime a' = (7, 7) /\ a_mtime a' = (3, 3)
  /\ do_chmod u1000 (at_ 1 100 (S_IFREG + 420)) None 511 all_now = Er EPERM.
Proof. eexists. repeat split. Qed.

Definition given (x old : Z) : Z := if x =? ID_NULL then old else x.
Theorem chown_allowed : forall c a uid gid t, (exists a', do_chown c a uid gid t = Ok a') <->
  (given uid (a_uid a) <> a_uid a -> super c) /\ (given gid (a_gid a) <> a_gid a -> owns c a \/ super c).
Proof.
  intros c a uid gid t. unfold do_chown, check_chown, given, owns, super, isowner, host_root.
  destruct (uid =? ID_NULL), (gid =? ID_NULL); cbn [negb andb];
  repeat match goal with |- context [if ?b then _ else _] => match b with context [any] => fail 1 | context [if _ then _ else _] => fail 1 | _ => destruct b eqn:? end end;
  split; intros H; try (destruct H as [? H]; try discriminate); try (eexists; reflexivity); repeat split; try lia; try tauto.
Qed.
Print Assumptions chown_allowed.
Definition x_any (m : Z) : bool := any m (Z.lor S_IXUSR (Z.lor S_IXGRP S_IXOTH)).
Theorem chown_effect : forall c a uid gid t a', do_chown c a uid gid t = Ok a' ->
  only [FUid; FGid; FMode; FCtime] a a' /\ a_uid a' = given uid (a_uid a) /\ a_gid a' = given gid (a_gid a) /\
  (forall i, 0 <= i -> i <> 10 -> i <> 11 -> Z.testbit (a_mode a') i = Z.testbit (a_mode a) i) /\
  (Z.testbit (a_mode a') 11 = true -> Z.testbit (a_mode a) 11 = true) /\ (Z.testbit (a_mode a') 10 = true -> Z.testbit (a_mode a) 10 = true) /\
  (* an executable file loses set-user-id, one executable by the group also set-group-id *)
  (uid <> ID_NULL \/ gid <> ID_NULL -> stamped (t_c t) (c_now c) (a_ctime a) (a_ctime a') /\
     ((exists k, In k [0; 3; 6] /\ Z.testbit (a_mode a) k = true) -> Z.testbit (a_mode a') 11 = false) /\
     (Z.testbit (a_mode a) 3 = true -> Z.testbit (a_mode a') 10 = false)).
Proof.
  intros c a uid gid t a'. unfold do_chown, given. cbv zeta.
  destruct (negb (negb (uid =? ID_NULL)) && negb (negb (gid =? ID_NULL))) eqn:Z0.
  { intros X0; apply Ok_inj in X0; subst a'. rewrite !negb_involutive in Z0. apply andb_true_iff in Z0. destruct Z0 as [Z1 Z2]. rewrite Z1, Z2.
    apply Z.eqb_eq in Z1, Z2. split; [intros f _; destruct f; reflexivity|]. split; [reflexivity|]. split; [reflexivity|]. split; [auto|]. split; [auto|]. split; [auto|]. tauto. }
  destruct (check_chown c a uid gid); [|discriminate].
  pose proof (any_x (a_mode a)) as Q. fold (x_any (a_mode a)) in *. intros X0; apply Ok_inj in X0; subst a'.
  assert (P3 : Z.testbit (a_mode a) 3 = true -> x_any (a_mode a) = true) by (intros T; apply Q; exists 3; cbn; auto).
  assert (KB : forall fl m, any fl IA_KILL_SUID = x_any m -> any fl IA_KILL_SGID = x_any m -> m = a_mode a ->
    (forall i, 0 <= i -> i <> 10 -> i <> 11 -> Z.testbit (kill_suid_sgid fl m) i = Z.testbit m i) /\
    (Z.testbit (kill_suid_sgid fl m) 11 = true -> Z.testbit m 11 = true) /\ (Z.testbit (kill_suid_sgid fl m) 10 = true -> Z.testbit m 10 = true) /\
    (x_any m = true -> Z.testbit (kill_suid_sgid fl m) 11 = false) /\ (Z.testbit m 3 = true -> Z.testbit (kill_suid_sgid fl m) 10 = false)).
  { intros fl m E1 E2 ->. rewrite kill_bits, E1, E2. cbv zeta. destruct (x_any (a_mode a)) eqn:X; cbn [andb].
    - destruct (Z.testbit (a_mode a) 10) eqn:T10, (Z.testbit (a_mode a) 3) eqn:T3; cbn [andb]; (split; [intros i Hi N1 N2|]).
      all: try (rewrite !ldiff_bit by lia; destruct (Z.eqb_spec 10 i); [lia|]; destruct (Z.eqb_spec 11 i); [lia|]; rewrite ?andb_true_r; reflexivity).
      all: rewrite ?ldiff_bit by lia; rewrite ?T10; cbn; rewrite ?andb_false_r, ?andb_true_r; repeat split; auto; try discriminate.
    - split; [auto|]. repeat split; auto; try discriminate. intros T. specialize (P3 T). congruence. }
  destruct (x_any (a_mode a)) eqn:X; destruct (Z.eqb_spec uid ID_NULL) as [EU|EU], (Z.eqb_spec gid ID_NULL) as [EG|EG]; try discriminate; cbn [negb]; upd; proj;
  (match goal with |- context [kill_suid_sgid ?f ?m] => destruct (KB f m ltac:(rewrite X; reflexivity) ltac:(rewrite X; reflexivity) eq_refl) as [K1 [K2 [K3 [K4 K5]]]] end);
  (split; [only_tac|]); (split; [reflexivity|]); (split; [reflexivity|]); (split; [exact K1|]); (split; [exact K2|]); (split; [exact K3|]); intros _;
  (split; [apply pick_stamped|]); (split; [|exact K5]); intros H; apply K4; (exact X || (apply Q in H; congruence)).
Qed.
Print Assumptions chown_effect.
Example chown_ex : exists a', do_chown root_ (at_ 1000 5 (S_IFREG + 3565)) 7 ID_NULL all_now = Ok a' /\ a_mode a' = S_IFREG + 493 /\ a_uid a' = 7 /\ a_gid a' = 5
  /\ do_chown u1000 (at_ 1000 5 (S_IFREG + 3565)) 7 ID_NULL all_now = Er EPERM.
Proof. eexists. repeat split. Qed.
(* the owner may give a file to a group they do not belong to *)
Theorem chgrp_own_group_only_refuted : exists c a gid t a', owns c a /\ ~ super c /\ gid <> c_gid (fsc c) /\ gid <> a_gid a /\ gid <> ID_NULL /\
  do_chown c a ID_NULL gid t = Ok a' /\ a_gid a' = gid.
Proof.
  exists u1000, (at_ 1000 100 (S_IFREG + 420)), 0, all_now. eexists. split; [reflexivity|]. split; [discriminate|].
  split; [discriminate|]. split; [discriminate|]. split; [discriminate|]. split; reflexivity.
Qed.
Print Assumptions chgrp_own_group_only_refuted.
(* set-user-id survives a change of ownership when the file is not executable *)
Theorem chown_clears_suid_refuted : exists c a gid t a', ~ super c /\ gid <> a_gid a /\ do_chown c a ID_NULL gid t = Ok a' /\
  a_gid a' = gid /\ Z.testbit (a_mode a') 11 = true.
Proof.
  exists u1000, (at_ 1000 5 (S_IFREG + 2048 + 420)), 100, all_now. eexists. split; [discriminate|].
  split; [discriminate|]. split; [reflexivity|]. split; reflexivity.
Qed.
Print Assumptions chown_clears_suid_refuted.

Theorem utimens_allowed : forall c a t, (exists a', do_utimens c a t = Ok a') <-> owns c a \/ holds (fsc c) a Wr.
Proof.
  intros c a t. unfold do_utimens, owns, isowner. pose proof (access_exact c a W_OK ltac:(unfold W_OK; lia)) as A.
  destruct (Z.eqb_spec (c_uid (fsc c)) (a_uid a)); [split; [auto|intros _; eexists; reflexivity]|].
  destruct (do_access c a W_OK) as [[]|].
  - split; [|intros _; eexists; reflexivity]. intros _. right. apply A; reflexivity.
  - split; [intros [? H]; discriminate|]. intros [H|H]; [contradiction|]. assert (X : Er e = Ok tt); [|discriminate]. apply A. intros [] T; [discriminate|exact H|discriminate].
Qed.
Print Assumptions utimens_allowed.
Lemma only_trans : forall l a b d, only l a b -> only l b d -> only l a d.
Proof. intros l a b d H1 H2 f Hf. specialize (H1 f Hf). specialize (H2 f Hf). destruct f; cbn in *; congruence. Qed.
Lemma upd_atime : forall c a t, let a' := update_attr a c (iattr_with IA_ATIME t) in
  only [FAtime; FMtime; FCtime] a a' /\ a_lazy a' = pick (t_a t) c (a_lazy a) /\ a_mtime a' = a_mtime a /\ a_ctime a' = a_ctime a.
Proof. intros c a t. cbv zeta. upd. proj. split; [only_tac|]. repeat split. Qed.
Lemma upd_mtime : forall c a t, let a' := update_attr a c (iattr_with IA_MTIME t) in
  only [FAtime; FMtime; FCtime] a a' /\ a_lazy a' = a_lazy a /\ a_mtime a' = pick (t_m t) c (a_mtime a) /\ a_ctime a' = a_ctime a.
Proof. intros c a t. cbv zeta. upd. proj. split; [only_tac|]. repeat split. Qed.
Lemma upd_ctime : forall c a t, let a' := update_attr a c (iattr_with IA_CTIME t) in
  only [FAtime; FMtime; FCtime] a a' /\ a_lazy a' = a_lazy a /\ a_mtime a' = a_mtime a /\ a_ctime a' = pick (t_c t) c (a_ctime a).
Proof. intros c a t. cbv zeta. upd. proj. split; [only_tac|]. repeat split. Qed.
Theorem utimens_effect : forall c a t a', do_utimens c a t = Ok a' ->
  only [FAtime; FMtime; FCtime] a a' /\ stamped (t_a t) (c_now c) (st_atime (stat_of a)) (st_atime (stat_of a')) /\
  stamped (t_m t) (c_now c) (a_mtime a) (a_mtime a') /\ stamped (t_c t) (c_now c) (a_ctime a) (a_ctime a').
Proof.
  intros c a t a'. unfold do_utimens. destruct (if isowner c a then _ else _); [|discriminate]. cbv zeta. cbn [stat_of st_atime].
  assert (SA : exists b, b = (if snd (t_a t) =? UTIME_NOW then update_itimes a c IA_ATIME else if snd (t_a t) =? UTIME_OMIT then a else update_attr a c (iattr_with IA_ATIME t)) /\
    only [FAtime; FMtime; FCtime] a b /\ a_lazy b = pick (t_a t) c (a_lazy a) /\ a_mtime b = a_mtime a /\ a_ctime b = a_ctime a).
  { eexists. split; [reflexivity|]. unfold pick. destruct (Z.eqb_spec (snd (t_a t)) UTIME_NOW) as [E|E]; [|destruct (Z.eqb_spec (snd (t_a t)) UTIME_OMIT) as [E'|E']].
    - unfold update_itimes. change (Z.land IA_ATIME IA_TIMES) with IA_ATIME. exact (upd_atime c a all_now).
    - split; [intros f _; destruct f; reflexivity|auto].
    - destruct (upd_atime c a t) as [A [B [C D]]]. unfold pick in B. rewrite (proj2 (Z.eqb_neq _ _) E), (proj2 (Z.eqb_neq _ _) E') in B. auto. }
  destruct SA as [b [<- [A1 [A2 [A3 A4]]]]].
  assert (SM : exists d, d = (if snd (t_m t) =? UTIME_NOW then update_itimes b c IA_MTIME else if snd (t_m t) =? UTIME_OMIT then b else update_attr b c (iattr_with IA_MTIME t)) /\
    only [FAtime; FMtime; FCtime] b d /\ a_lazy d = a_lazy b /\ a_mtime d = pick (t_m t) c (a_mtime b) /\ a_ctime d = a_ctime b).
  { eexists. split; [reflexivity|]. unfold pick. destruct (Z.eqb_spec (snd (t_m t)) UTIME_NOW) as [E|E]; [|destruct (Z.eqb_spec (snd (t_m t)) UTIME_OMIT) as [E'|E']].
    - unfold update_itimes. change (Z.land IA_MTIME IA_TIMES) with IA_MTIME. exact (upd_mtime c b all_now).
    - split; [intros f _; destruct f; reflexivity|auto].
    - destruct (upd_mtime c b t) as [A [B [C D]]]. unfold pick in C. rewrite (proj2 (Z.eqb_neq _ _) E), (proj2 (Z.eqb_neq _ _) E') in C. auto. }
  destruct SM as [d [<- [B1 [B2 [B3 B4]]]]]. intros X. assert (E0 : a' = if snd (t_c t) =? UTIME_OMIT then d else update_attr d c (iattr_with IA_CTIME t)) by congruence. clear X.
  assert (F : only [FAtime; FMtime; FCtime] d a' /\ a_lazy a' = a_lazy d /\ a_mtime a' = a_mtime d /\ a_ctime a' = pick (t_c t) c (a_ctime d)).
  { rewrite E0. destruct (Z.eqb_spec (snd (t_c t)) UTIME_OMIT) as [E|E]; [|exact (upd_ctime c d t)].
    split; [intros f _; destruct f; reflexivity|]. unfold pick. rewrite E. auto. }
  destruct F as [C1 [C2 [C3 C4]]]. split; [exact (only_trans _ _ _ _ A1 (only_trans _ _ _ _ B1 C1))|].
  rewrite C2, B2, A2, C3, B3, A3, C4, B4, A4. split; [apply pick_stamped|]. split; apply pick_stamped.
Qed.
Print Assumptions utimens_effect.
Example utimens_ex : exists a', do_utimens u1000 (at_ 1000 5 (S_IFREG + 420)) (mkIt OMIT (9, 9) OMIT NOW) = Ok a' /\ a_lazy a' = (9, 9) /\ a_mtime a' = (3, 3) /\ a_ctime a' = (7, 7).
Proof. eexists. repeat split. Qed.
(* anyone who may write a file may also set its times to any value, not just to the present *)
Theorem foreign_times_refuted : exists c a t a', ~ owns c a /\ ~ super c /\ do_utimens c a t = Ok a' /\ a_mtime a' = (12345, 678) /\ c_now c <> (12345, 678).
Proof.
  exists u1000, (at_ 1 1 (S_IFREG + 438)), (mkIt OMIT OMIT (12345, 678) NOW). eexists. split; [discriminate|].
  split; [discriminate|]. split; [reflexivity|]. split; [reflexivity|discriminate].
Qed.
Print Assumptions foreign_times_refuted.

(* file data *)
Theorem write_effect : forall a c beg n ok, 0 <= n -> let a' := after_write a c beg n ok in
  only [FSize; FMode; FMtime; FCtime] a a' /\ a_size a' = Z.max (beg + n) (a_size a) /\ a_span a' = Z.max (beg + n) (a_span a) /\
  (n = 0 -> a_mode a' = a_mode a /\ a_mtime a' = a_mtime a) /\
  (0 < n -> a_mtime a' = c_now c /\ a_ctime a' = c_now c) /\
  (0 < n -> ok = true -> Z.testbit (a_mode a') 11 = false /\ (Z.testbit (a_mode a) 3 = true -> Z.testbit (a_mode a') 10 = false)) /\
  (forall i, 0 <= i -> i <> 10 -> i <> 11 -> Z.testbit (a_mode a') i = Z.testbit (a_mode a) i).
Proof.
  intros a c beg n ok Hn. cbv zeta. unfold after_write, post_io.
  assert (KA : kill_suid_sgid 0 (a_mode a) = a_mode a) by reflexivity.
  destruct (Z.ltb_spec beg (beg + n)); destruct (Z.ltb_spec 0 n); try lia; [destruct ok|]; cbn [andb]; upd; proj.
  - split; [only_tac|]. split; [reflexivity|]. split; [reflexivity|]. split; [lia|]. split; [split; reflexivity|]. rewrite kill_bits. flags. cbn [andb]. cbv zeta. split.
    + intros _ _. destruct (Z.testbit (a_mode a) 10) eqn:T, (Z.testbit (a_mode a) 3) eqn:T3; cbn [andb]; rewrite !ldiff_bit by lia; rewrite ?T; cbn; rewrite ?andb_false_r; auto.
    + intros i Hi N1 N2. destruct (Z.testbit (a_mode a) 10 && Z.testbit (a_mode a) 3); rewrite ?ldiff_bit by lia; destruct (Z.eqb_spec 10 i); try lia; destruct (Z.eqb_spec 11 i); try lia; rewrite ?andb_true_r; reflexivity.
  - split; [only_tac|]. split; [reflexivity|]. split; [reflexivity|]. split; [lia|]. split; [split; reflexivity|]. split; [discriminate|]. intros i Hi _ _. rewrite kill_bits. flags. reflexivity.
  - split; [only_tac; rewrite kill_bits; flags; reflexivity|]. split; [reflexivity|]. split; [reflexivity|]. split; [intros _; rewrite kill_bits; flags; split; reflexivity|]. split; [lia|]. split; [lia|].
    intros i Hi _ _. rewrite kill_bits. flags. reflexivity.
Qed.
Print Assumptions write_effect.
Theorem truncate_effect : forall c a size fails a', do_truncate c a size fails = Ok a' ->
  only [FSize; FMode; FMtime; FCtime] a a' /\ a_size a' = size /\ a_span a' = size /\
  (size <> a_size a -> a_mtime a' = c_now c /\ a_ctime a' = c_now c /\ Z.testbit (a_mode a') 11 = false) /\
  (size = a_size a -> a_mode a' = a_mode a /\ a_mtime a' = a_mtime a).
Proof.
  intros c a size fails a'. unfold do_truncate. destruct (isdir a); [discriminate|]. destruct (negb (isreg a)); [discriminate|].
  destruct ((size <? 0) || fails); [discriminate|]. intros X0; apply Ok_inj in X0; subst a'. unfold post_io. destruct (Z.eqb_spec (a_size a) size) as [E|E]; upd; proj.
  - split; [only_tac|]. split; [reflexivity|]. split; [reflexivity|]. split; [congruence|]. intros _. rewrite kill_bits. flags. split; reflexivity.
  - split; [only_tac|]. split; [reflexivity|]. split; [reflexivity|]. split; [intros _|congruence]. split; [reflexivity|]. split; [reflexivity|].
    rewrite kill_bits. flags. cbn [andb]. cbv zeta. destruct (_ && _); rewrite !ldiff_bit by lia; cbn; rewrite ?andb_false_r; reflexivity.
Qed.
Print Assumptions truncate_effect.
(* fallocate: the size grows with the range unless it was told to keep it; the span covers it *)
Theorem falloc_effect : forall a c keep beg len, let a' := after_falloc a c keep beg len in
  only [FSize; FMtime; FCtime] a a' /\ a_size a' = (if keep then a_size a else Z.max (beg + len) (a_size a)) /\
  a_span a' = Z.max (beg + len) (a_span a) /\ a_mtime a' = c_now c /\ a_ctime a' = c_now c.
Proof.
  intros a c keep beg len. cbv zeta. unfold after_falloc, post_io. destruct keep; upd; proj.
  all: (split; [only_tac; rewrite ?kill_bits; flags; reflexivity|]); repeat split.
Qed.
Print Assumptions falloc_effect.
Example falloc_ex : a_size (after_falloc (at_ 1 1 (S_IFREG + 420)) u1000 true 4 100) = a_size (at_ 1 1 (S_IFREG + 420)) /\
  a_size (after_falloc (at_ 1 1 (S_IFREG + 420)) u1000 false 4 100) = 104.
Proof. repeat split. Qed.
Example write_ex : a_mode (after_write (at_ 1 1 (S_IFREG + 3565)) u1000 4 10 true) = S_IFREG + 493 /\ a_size (after_write (at_ 1 1 (S_IFREG + 3565)) u1000 4 10 true) = 14.
Proof. repeat split. Qed.
(* data of a set-user-id program is changed by someone else and the bit stays: copy_file_range,
   fallocate (punch or zero a range), and a write that fails after part of the data went in *)
Theorem data_change_clears_suid_refuted : exists c a, ~ super c /\ ~ owns c a /\ Z.testbit (a_mode a) 6 = true /\
  Z.testbit (a_mode (after_copy a c 0 4096)) 11 = true /\ Z.testbit (a_mode (after_falloc a c true 0 4096)) 11 = true /\
  Z.testbit (a_mode (after_write a c 0 4096 false)) 11 = true /\ a_mtime (after_write a c 0 4096 false) <> a_mtime a.
Proof.
  exists u1000, (at_ 1 1 (S_IFREG + 2048 + 511)). split; [discriminate|]. split; [discriminate|]. repeat split. discriminate.
Qed.
Print Assumptions data_change_clears_suid_refuted.
(* truncation looks at no permission *)
Theorem truncate_needs_write_refuted : exists c a a', ~ super c /\ ~ owns c a /\ ~ holds (fsc c) a Wr /\ do_truncate c a 0 false = Ok a' /\ a_size a = 10 /\ a_size a' = 0.
Proof.
  exists u1000, (at_ 1 1 (S_IFREG + 420)). eexists. split; [discriminate|]. split; [discriminate|]. split; [discriminate|]. split; [reflexivity|]. split; reflexivity.
Qed.
Print Assumptions truncate_needs_write_refuted.
(* tune: the flags of the directory other than those named are lost *)
Theorem tune_keeps_other_flags_refuted : exists c d fl, any (a_flags d) INODEF_ROOTD = true /\ do_tune c false d INODEF_FTYPE2 0 = Ok fl /\ any fl INODEF_ROOTD = false.
Proof.
  exists u1000, (mkAttrs 1 1 1000 100 (S_IFDIR + 493) 1 10 10 1 2 0 1 1 (1, 1) (2, 2) (3, 3) (4, 4) (2, 2)). eexists. repeat split.
Qed.
Print Assumptions tune_keeps_other_flags_refuted.

(* ---- C47: the setattr request ---- *)
Definition did (on : bool) (r : res attrs) (a a' : attrs) : Prop := if on then r = Ok a' else a' = a.
Lemma seq_did : forall p on f x, seq p on f = (x, None) -> exists y, p = (y, None) /\ did on (f y) y x.
Proof.
  intros [y o] on f x. unfold seq, did. cbn [fst snd]. destruct o; [discriminate|]. destruct on; [|intros E; exists y; split; congruence].
  destruct (f y) eqn:E0; intros E; [|discriminate]. exists y. split; [reflexivity|]. congruence.
Qed.
Lemma setattr_steps : forall c a parent q tfail a', op_setattr c a parent q tfail = (a', None) -> let t := req_times q in
  let id x := match x with Some v => v | None => ID_NULL end in
  exists a1 a2 a3 a4, did (q_anow q || q_mnow q) (do_utimens c a t) a a1 /\
    did (some (q_mode q)) (do_chmod c a1 parent (match q_mode q with Some m => m | None => 0 end) t) a1 a2 /\
    did (some (q_uid q) || some (q_gid q)) (do_chown c a2 (id (q_uid q)) (id (q_gid q)) t) a2 a3 /\
    did (some (q_size q)) (do_truncate c a3 (match q_size q with Some z => z | None => 0 end) tfail) a3 a4 /\
    did ((some (q_atime q) || some (q_mtime q) || some (q_ctime q)) && negb (some (q_mode q) || some (q_uid q) || some (q_gid q) || some (q_size q)))
        (do_utimens c a4 t) a4 a'.
Proof.
  intros c a parent q tfail a' H t id. unfold op_setattr in H. cbv zeta in H. fold t in H.
  apply seq_did in H. destruct H as [a4 [H D5]]. apply seq_did in H. destruct H as [a3 [H D4]]. apply seq_did in H. destruct H as [a2 [H D3]].
  apply seq_did in H. destruct H as [a1 [H D2]]. apply seq_did in H. destruct H as [a0 [H D1]]. injection H as <-. exists a1, a2, a3, a4. auto.
Qed.

Lemma stamped_twice : forall t now x y z, stamped t now x y -> stamped t now y z -> stamped t now x z.
Proof.
  intros t now x y z [A1 [A2 A3]] [B1 [B2 B3]]. split; [exact B1|]. split; [|exact B3]. intros E. rewrite (B2 E). exact (A2 E).
Qed.
Lemma truncate_mode : forall c a size fails a', do_truncate c a size fails = Ok a' -> forall i, 0 <= i -> i <> 10 -> i <> 11 -> Z.testbit (a_mode a') i = Z.testbit (a_mode a) i.
Proof.
  intros c a size fails a'. unfold do_truncate. destruct (isdir a); [discriminate|]. destruct (negb (isreg a)); [discriminate|].
  destruct ((size <? 0) || fails); [discriminate|]. intros X0; apply Ok_inj in X0; subst a'. intros i Hi N1 N2. unfold post_io. destruct (Z.eqb_spec (a_size a) size) as [E|E]; upd; proj; rewrite kill_bits; flags; cbn [andb]; cbv zeta.
  - reflexivity.
  - destruct (_ && _); rewrite !ldiff_bit by lia; destruct (Z.eqb_spec 10 i); try lia; destruct (Z.eqb_spec 11 i); try lia; rewrite ?andb_true_r; reflexivity.
Qed.
Lemma only_weak : forall l l' a a', only l a a' -> (forall f, In f l -> In f l') -> only l' a a'.
Proof. intros l l' a a' H I f Hf. apply H. intros X. apply Hf. apply I. exact X. Qed.
Lemma did_only : forall l on r a a', (forall x, r = Ok x -> only l a x) -> did on r a a' -> only l a a'.
Proof. intros l on r a a' H D. unfold did in D. destruct on; [exact (H _ D)|subst a'; intros f _; destruct f; reflexivity]. Qed.
(* a request that succeeds did everything it asked for, explicit times alone excepted when they
   come together with another attribute, and nothing else *)
Theorem setattr_success : forall c a parent q tfail a', op_setattr c a parent q tfail = (a', None) ->
  only [FMode; FUid; FGid; FSize; FAtime; FMtime; FCtime] a a' /\
  a_uid a' = match q_uid q with Some u => given u (a_uid a) | None => a_uid a end /\
  a_gid a' = match q_gid q with Some u => given u (a_gid a) | None => a_gid a end /\
  a_size a' = match q_size q with Some z => z | None => a_size a end /\
  fmt (a_mode a') = fmt (a_mode a) /\
  (forall i, 0 <= i < 10 -> Z.testbit (a_mode a') i = Z.testbit (match q_mode q with Some m => m | None => a_mode a end) i) /\
  (q_mode q = None -> q_uid q = None -> q_gid q = None -> q_size q = None ->
     a_mode a' = a_mode a /\ stamped (t_a (req_times q)) (c_now c) (a_lazy a) (a_lazy a') /\ stamped (t_m (req_times q)) (c_now c) (a_mtime a) (a_mtime a')).
Proof.
  intros c a parent q tfail a' H. apply setattr_steps in H. cbv zeta in H. destruct H as [a1 [a2 [a3 [a4 [D1 [D2 [D3 [D4 D5]]]]]]]].
  set (t := req_times q) in *.
  pose proof (did_only _ _ _ _ _ (fun x E => proj1 (utimens_effect c a t x E)) D1) as O1.
  pose proof (did_only _ _ _ _ _ (fun x E => proj1 (chmod_effect c a1 parent _ t x E)) D2) as O2.
  pose proof (did_only _ _ _ _ _ (fun x E => proj1 (chown_effect c a2 _ _ t x E)) D3) as O3.
  pose proof (did_only _ _ _ _ _ (fun x E => proj1 (truncate_effect c a3 _ tfail x E)) D4) as O4.
  pose proof (did_only _ _ _ _ _ (fun x E => proj1 (utimens_effect c a4 t x E)) D5) as O5.
  assert (U : forall x x', only [FAtime; FMtime; FCtime] x x' -> a_uid x = a_uid x' /\ a_gid x = a_gid x' /\ a_size x = a_size x' /\ a_mode x = a_mode x').
  { intros x x' O. repeat split; [exact (O FUid ltac:(cbn; intuition discriminate))|exact (O FGid ltac:(cbn; intuition discriminate))
      |exact (O FSize ltac:(cbn; intuition discriminate))|exact (O FMode ltac:(cbn; intuition discriminate))]. }
  destruct (U _ _ O1) as [U1 [U2 [U3 U4]]]. destruct (U _ _ O5) as [V1 [V2 [V3 V4]]].
  assert (C1 : a_uid a1 = a_uid a2) by exact (O2 FUid ltac:(cbn; intuition discriminate)).
  assert (C2 : a_gid a1 = a_gid a2) by exact (O2 FGid ltac:(cbn; intuition discriminate)).
  assert (C3 : a_size a1 = a_size a2) by exact (O2 FSize ltac:(cbn; intuition discriminate)).
  assert (W3 : a_size a2 = a_size a3) by exact (O3 FSize ltac:(cbn; intuition discriminate)).
  assert (T1 : a_uid a3 = a_uid a4) by exact (O4 FUid ltac:(cbn; intuition discriminate)).
  assert (T2 : a_gid a3 = a_gid a4) by exact (O4 FGid ltac:(cbn; intuition discriminate)).
  assert (W1 : a_uid a3 = match q_uid q with Some u => given u (a_uid a2) | None => a_uid a2 end /\ a_gid a3 = match q_gid q with Some u => given u (a_gid a2) | None => a_gid a2 end /\
               forall i, 0 <= i -> i <> 10 -> i <> 11 -> Z.testbit (a_mode a3) i = Z.testbit (a_mode a2) i).
  { unfold did in D3. destruct (q_uid q) as [u|], (q_gid q) as [g|]; cbn [some orb] in D3; try (apply chown_effect in D3; destruct D3 as [_ [E1 [E2 [E3 _]]]]; auto).
    subst a3. auto. }
  destruct W1 as [W1 [W2 W4]].
  assert (S1 : a_size a4 = match q_size q with Some z => z | None => a_size a3 end).
  { unfold did in D4. destruct (q_size q) as [z|]; cbn [some] in D4; [apply truncate_effect in D4; tauto|congruence]. }
  assert (S2 : forall i, 0 <= i -> i <> 10 -> i <> 11 -> Z.testbit (a_mode a4) i = Z.testbit (a_mode a3) i).
  { unfold did in D4. destruct (some (q_size q)); [|subst a4; auto]. intros i Hi N1 N2. exact (truncate_mode _ _ _ _ _ D4 i Hi N1 N2). }
  assert (FM : forall x y, (forall i, 0 <= i -> i <> 10 -> i <> 11 -> Z.testbit x i = Z.testbit y i) -> fmt x = fmt y).
  { intros x y E. unfold fmt. apply Z.bits_inj'. intros i Hi. rewrite !Z.land_spec. destruct (Z.ltb_spec i 12).
    - assert (X : Z.testbit S_IFMT i = false) by (unfold S_IFMT; change 61440 with (Z.shiftl 15 12); apply Z.shiftl_spec_low; lia). rewrite X, !andb_false_r. reflexivity.
    - rewrite E by lia. reflexivity. }
  assert (M2 : fmt (a_mode a2) = fmt (a_mode a1) /\ forall i, 0 <= i < 10 -> Z.testbit (a_mode a2) i = Z.testbit (match q_mode q with Some m => m | None => a_mode a1 end) i).
  { unfold did in D2. destruct (q_mode q) as [m|]; cbn [some] in D2; [|subst a2; auto]. apply chmod_effect in D2. destruct D2 as [_ [_ [E1 [E2 _]]]]. split; [exact E1|]. intros i Hi. apply E2; lia. }
  destruct M2 as [M2 M3].
  split.
  { apply (only_trans _ _ a1); [refine (only_weak _ _ _ _ O1 _); intros f; cbn; tauto|]. apply (only_trans _ _ a2); [refine (only_weak _ _ _ _ O2 _); intros f; cbn; tauto|].
    apply (only_trans _ _ a3); [refine (only_weak _ _ _ _ O3 _); intros f; cbn; tauto|]. apply (only_trans _ _ a4); [refine (only_weak _ _ _ _ O4 _); intros f; cbn; tauto|refine (only_weak _ _ _ _ O5 _); intros f; cbn; tauto]. }
  split; [rewrite <- V1, <- T1, W1, <- C1, <- U1; reflexivity|]. split; [rewrite <- V2, <- T2, W2, <- C2, <- U2; reflexivity|].
  split; [rewrite <- V3, S1, <- W3, <- C3, <- U3; reflexivity|].
  split; [rewrite <- V4, (FM _ _ S2), (FM _ _ W4), M2, <- U4; reflexivity|].
  split; [intros i Hi; rewrite <- V4, S2, W4, M3 by lia; rewrite <- U4; reflexivity|].
  intros Q1 Q2 Q3 Q4. rewrite Q1, Q2, Q3, Q4 in *. cbn [some orb negb] in D2, D3, D4, D5. unfold did in D2, D3, D4. subst a4 a3 a2. rewrite andb_true_r in D5.
  split; [congruence|].
  unfold did in D1, D5. destruct (q_anow q || q_mnow q), (some (q_atime q) || some (q_mtime q) || some (q_ctime q)) eqn:B.
  - apply utimens_effect in D1. apply utimens_effect in D5. destruct D1 as [_ [X1 [Y1 _]]], D5 as [_ [X2 [Y2 _]]]. cbn [stat_of st_atime] in X1, X2. split; [exact (stamped_twice _ _ _ _ _ X1 X2)|exact (stamped_twice _ _ _ _ _ Y1 Y2)].
  - subst a'. apply utimens_effect in D1. destruct D1 as [_ [X1 [Y1 _]]]. auto.
  - subst a1. apply utimens_effect in D5. destruct D5 as [_ [X1 [Y1 _]]]. auto.
  - subst a' a1. unfold t, req_times. cbn [t_a t_m]. destruct (q_atime q); [discriminate|]. destruct (q_mtime q); [discriminate|]. split; (split; [discriminate|split; [reflexivity|intros _ N; contradiction N; reflexivity]]).
Qed.
Print Assumptions setattr_success.
(* a request for one kind of change that fails changes nothing *)
Definition kinds (q : sreq) : Z :=
  (if q_anow q || q_mnow q || some (q_atime q) || some (q_mtime q) || some (q_ctime q) then 1 else 0) + (if some (q_mode q) then 1 else 0)
  + (if some (q_uid q) || some (q_gid q) then 1 else 0) + (if some (q_size q) then 1 else 0).
Lemma utimens_again : forall c a t a', do_utimens c a t = Ok a' -> exists a'', do_utimens c a' t = Ok a''.
Proof.
  intros c a t a' H. apply utimens_allowed. destruct (proj1 (utimens_allowed c a t) (ex_intro _ _ H)) as [O|O].
  - left. unfold owns in *. apply utimens_effect in H. destruct H as [Q _]. rewrite <- (Q FUid ltac:(cbn; intuition discriminate) : a_uid a = a_uid a'). exact O.
  - right. apply utimens_effect in H. destruct H as [Q _]. unfold holds, class_of, isdir in *. revert O.
    pose proof (Q FUid ltac:(cbn; intuition discriminate) : a_uid a = a_uid a') as E1. pose proof (Q FGid ltac:(cbn; intuition discriminate) : a_gid a = a_gid a') as E2.
    pose proof (Q FMode ltac:(cbn; intuition discriminate) : a_mode a = a_mode a') as E3. rewrite <- ?E1, <- ?E2, <- ?E3. auto.
Qed.
Theorem setattr_failure : forall c a parent q tfail a' e, kinds q <= 1 -> op_setattr c a parent q tfail = (a', Some e) -> a' = a.
Proof.
  intros c a parent q tfail a' e K H. unfold kinds in K. unfold op_setattr in H. cbv zeta in H. set (t := req_times q) in *. unfold seq in H.
  destruct (some (q_mode q)), (some (q_uid q) || some (q_gid q)) eqn:G, (some (q_size q)); try (destruct (_ || _) in K; lia);
    destruct (q_anow q || q_mnow q); cbn [orb] in K; try lia; try (destruct (_ || _) in K; lia).
  all: cbn [fst snd orb negb andb] in H; rewrite ?andb_false_r in H.
  all: rewrite <- ?orb_assoc, ?orb_true_r, ?orb_false_r, ?orb_true_r, ?G in H; cbn [orb negb] in H; rewrite ?andb_false_r, ?andb_true_r in H.
  all: repeat (cbn [fst snd] in H; match type of H with
       | context [match ?f with Ok _ => _ | Er _ => _ end] => let E := fresh in destruct f eqn:E
       | context [if ?b then _ else _] => let E := fresh in destruct b eqn:E
       end); cbn [fst snd] in H; try congruence.
  exfalso. match goal with E : do_utimens c a t = Ok _ |- _ => destruct (utimens_again _ _ _ _ E) as [x Ex] end. congruence.
Qed.
Print Assumptions setattr_failure.
Definition only_mode (m : Z) : sreq := mkReq (Some m) None None None None None None false false.
Example setattr_ex : exists a', op_setattr u1000 (at_ 1000 5 (S_IFREG + 420)) None (mkReq (Some 384) None (Some 100) (Some 3) None None None false false) false = (a', None) /\
  a_mode a' = S_IFREG + 384 /\ a_gid a' = 100 /\ a_size a' = 3 /\ kinds (only_mode 384) = 1 /\ op_setattr u1000 (at_ 1 5 (S_IFREG + 420)) None (only_mode 384) false = (at_ 1 5 (S_IFREG + 420), Some EPERM).
Proof. eexists. repeat split. Qed.
(* times asked for together with a new mode are dropped though the request succeeds *)
Theorem setattr_applies_times_refuted : exists c a q a' x, op_setattr c a None q false = (a', None) /\ owns c a /\ q_mtime q = Some x /\
  snd x <> UTIME_NOW /\ snd x <> UTIME_OMIT /\ a_mtime a' <> x /\ a_mtime a' = a_mtime a.
Proof.
  exists u1000, (at_ 1000 5 (S_IFREG + 420)), (mkReq (Some 384) None None None None (Some (12345, 678)) None false false). eexists. exists (12345, 678).
  split; [reflexivity|]. split; [reflexivity|]. split; [reflexivity|]. split; [discriminate|]. split; [discriminate|]. split; [discriminate|reflexivity].
Qed.
Print Assumptions setattr_applies_times_refuted.
(* a request refused over the owner has already changed the mode *)
Theorem setattr_all_or_nothing_refuted : exists c a q a', op_setattr c a None q false = (a', Some EPERM) /\ q_uid q = Some 7 /\ a_mode a' <> a_mode a.
Proof.
  exists u1000, (at_ 1000 5 (S_IFREG + 420)), (mkReq (Some 384) (Some 7) None None None None None false false). eexists.
  split; [reflexivity|]. split; [reflexivity|discriminate].
Qed.
Print Assumptions setattr_all_or_nothing_refuted.

(* ---- C48: new files ---- *)
Theorem new_inode_attrs : forall c ino parent mode iflags rdev, 0 <= c_umask (fsc c) < 512 -> let a := new_inode c ino parent mode iflags rdev in
  a_uid a = c_uid (fsc c) /\ a_gid a = c_gid (fsc c) /\ a_ino a = ino /\ a_rdev a = rdev /\ fmt (a_mode a) = fmt mode /\
  (forall i, 0 <= i < 12 -> i <> 10 -> Z.testbit (a_mode a) i = Z.testbit mode i && negb (Z.testbit (c_umask (fsc c)) i)) /\
  (* a directory in a set-group-id directory is one too *)
  Z.testbit (a_mode a) 10 = Z.testbit mode 10 || ((fmt mode =? S_IFDIR) && match parent with Some p => Z.testbit (a_mode p) 10 | None => false end) /\
  a_btime a = c_now c /\ a_lazy a = c_now c /\ a_mtime a = c_now c /\ a_ctime a = c_now c /\
  a_size a = (if fmt mode =? S_IFDIR then DIR_EMPTY_SIZE else 0) /\ a_blocks a = 0.
Proof.
  intros c ino parent mode iflags rdev HU. cbv zeta. unfold new_inode. cbv zeta.
  assert (UH : forall i, 9 <= i -> Z.testbit (c_umask (fsc c)) i = false).
  { intros i Hi. destruct (Z.eqb_spec (c_umask (fsc c)) 0) as [->|N]; [apply Z.bits_0|]. apply Z.bits_above_log2; [lia|]. apply Z.log2_lt_pow2; [lia|].
    apply Z.lt_le_trans with (2 ^ 9); [lia|apply Z.pow_le_mono_r; lia]. }
  assert (F : fmt (Z.ldiff mode (c_umask (fsc c))) = fmt mode).
  { unfold fmt. apply Z.bits_inj'. intros i Hi. rewrite !Z.land_spec, Z.ldiff_spec. destruct (Z.ltb_spec i 9); [|rewrite UH by lia; rewrite andb_true_r; reflexivity].
    assert (X : Z.testbit S_IFMT i = false) by (unfold S_IFMT; change 61440 with (Z.shiftl 15 12); apply Z.shiftl_spec_low; lia). rewrite X, !andb_false_r. reflexivity. }
  rewrite F. set (pm := match parent with Some p => a_mode p | None => 0 end).
  assert (P : forall i, 0 <= i -> Z.testbit (Z.land pm S_ISGID) i = (i =? 10) && match parent with Some p => Z.testbit (a_mode p) 10 | None => false end).
  { intros i Hi. change S_ISGID with (2 ^ 10). rewrite Z.land_spec, Z.pow2_bits_eqb by lia. rewrite (Z.eqb_sym 10 i). unfold pm. destruct parent as [p|]; [|rewrite Z.bits_0, andb_false_r; reflexivity].
    destruct (Z.eqb_spec i 10) as [->|]; [apply andb_true_r|apply andb_false_r]. }
  unfold update_itimes. change (Z.land IA_TIMES IA_TIMES) with IA_TIMES. upd. proj. rewrite kill_bits. flags. cbn [andb]. cbv zeta.
  assert (N : pick NOW c (0, 0) = c_now c) by reflexivity.
  do 4 (split; [reflexivity|]).
  assert (M : forall i, 0 <= i -> Z.testbit (if fmt mode =? S_IFDIR then Z.lor (Z.ldiff mode (c_umask (fsc c))) (Z.land pm S_ISGID) else Z.ldiff mode (c_umask (fsc c))) i =
    Z.testbit mode i && negb (Z.testbit (c_umask (fsc c)) i) || ((fmt mode =? S_IFDIR) && (i =? 10) && match parent with Some p => Z.testbit (a_mode p) 10 | None => false end)).
  { intros i Hi. destruct (fmt mode =? S_IFDIR); cbn [andb]; [rewrite Z.lor_spec, Z.ldiff_spec, P by lia; reflexivity|rewrite Z.ldiff_spec, orb_false_r; reflexivity]. }
  split.
  { rewrite <- F. unfold fmt at 1 3. apply Z.bits_inj'. intros i Hi. rewrite !Z.land_spec. rewrite <- F in M. rewrite M, Z.ldiff_spec by lia. destruct (Z.eqb_spec i 10) as [->|]; [rewrite !andb_false_r; reflexivity|].
    rewrite andb_false_r. cbn [andb]. rewrite orb_false_r. reflexivity. }
  split; [intros i Hi N10; rewrite M by lia; rewrite (proj2 (Z.eqb_neq _ _) N10), andb_false_r; apply orb_false_r|].
  split; [rewrite M, UH by lia; rewrite Z.eqb_refl, !andb_true_r; reflexivity|]. rewrite N. repeat split.
Qed.
Print Assumptions new_inode_attrs.
Definition sgid_dir : attrs := mkAttrs 9 1 0 5 (S_IFDIR + S_ISGID + 511) 0 10 10 1 2 0 1 1 (1, 1) (2, 2) (3, 3) (4, 4) (2, 2).
Example new_inode_ex : let a := new_inode u1000 44 (Some sgid_dir) (S_IFDIR + 511) 0 0 in 0 <= c_umask (fsc u1000) < 512 /\ a_mode a = S_IFDIR + S_ISGID + Z.ldiff 511 (c_umask (fsc u1000)) /\ a_uid a = 1000.
Proof. vm_compute. repeat split; congruence. Qed.
(* the group of a set-group-id directory is not passed on to what is created in it *)
Theorem sgid_dir_group_refuted : exists c d mode, Z.testbit (a_mode d) 10 = true /\ isdir d = true /\ let a := new_inode c 44 (Some d) mode 0 0 in
  a_gid a <> a_gid d /\ Z.testbit (a_mode a) 10 = true.
Proof. exists u1000, sgid_dir, (S_IFDIR + 511). split; [reflexivity|]. split; [reflexivity|]. split; [discriminate|reflexivity]. Qed.
Print Assumptions sgid_dir_group_refuted.
