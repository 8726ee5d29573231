From Verif Require Import Base AddrModel AddrProofs WalkModel PackModel PackSpec.

(* ---- equality tests ---- *)
Lemma bytes_eqb_eq : forall a b, bytes_eqb a b = true <-> a = b.
Proof.
  induction a as [|x a IH]; intros [|y b]; cbn [bytes_eqb]; split; intros H; try discriminate; auto.
  - apply andb_true_iff in H. destruct H as [H1 H2]. apply Z.eqb_eq in H1. apply IH in H2. subst; auto.
  - inversion H; subst. apply andb_true_iff; split; [apply Z.eqb_refl|apply IH; auto].
Qed.
Lemma lsid_eqb_eq : forall a b, lsid_eqb a b = true <-> a = b.
Proof.
  intros [v1 a1 a2 a3 a4 a5] [v2 b1 b2 b3 b4 b5]. unfold lsid_eqb. cbn.
  rewrite !andb_true_iff, !Z.eqb_eq, bytes_eqb_eq. split.
  - intros (((((H1 & H2) & H3) & H4) & H5) & H6). subst; auto.
  - intros H. inversion H; subst. repeat split; auto.
Qed.
Lemma lsid_eqb_refl : forall a, lsid_eqb a a = true.
Proof. intros. apply lsid_eqb_eq; auto. Qed.
Lemma lsid_eqb_neq : forall a b, a <> b -> lsid_eqb a b = false.
Proof. intros a b H. destruct (lsid_eqb a b) eqn:X; auto. apply lsid_eqb_eq in X. contradiction. Qed.
Lemma caddr_eqb_eq : forall a b, caddr_eqb a b = true <-> a = b.
Proof.
  intros [h1 s1 t1] [h2 s2 t2]. unfold caddr_eqb. cbn.
  rewrite !andb_true_iff, !Z.eqb_eq, bytes_eqb_eq. split.
  - intros ((H1 & H2) & H3). subst; auto.
  - intros H. inversion H; subst. auto.
Qed.
Lemma caddr_eqb_refl : forall a, caddr_eqb a a = true.
Proof. intros. apply caddr_eqb_eq; auto. Qed.
Lemma caddr_eqb_neq : forall a b, a <> b -> caddr_eqb a b = false.
Proof. intros a b H. destruct (caddr_eqb a b) eqn:X; auto. apply caddr_eqb_eq in X. contradiction. Qed.
Lemma lsid_dec : forall a b : lsid, a = b \/ a <> b.
Proof. intros a b. destruct (lsid_eqb a b) eqn:X; [left; apply lsid_eqb_eq; auto|right; intro H; apply lsid_eqb_eq in H; congruence]. Qed.
Lemma caddr_dec : forall a b : caddr, a = b \/ a <> b.
Proof. intros a b. destruct (caddr_eqb a b) eqn:X; [left; apply caddr_eqb_eq; auto|right; intro H; apply caddr_eqb_eq in H; congruence]. Qed.

(* ---- triples: success establishes Q; an error is not -ENOENT and some step was
   made to fail; nothing aborts ---- *)
Definition hoare {A} (P : st -> Prop) (m : M A) (Q : A -> st -> Prop) : Prop :=
  forall s, P s ->
    match m s with
    | (Ok a, s') => Q a s' /\ incl (s_fates s') (s_fates s)
    | (Err e, s') => e <> ENoent /\ faulty (s_fates s)
    | (Abort, _) => False
    end.

Lemma faulty_incl : forall a b, incl a b -> faulty a -> faulty b.
Proof. intros a b I (n & H). exists n. auto. Qed.

Lemma h_ret : forall A (a : A) (P : st -> Prop) (Q : A -> st -> Prop), (forall s, P s -> Q a s) -> hoare P (ret a) Q.
Proof. intros A a P Q H s HP. cbn. split; [auto|apply incl_refl]. Qed.

Lemma h_bind : forall A B (m : M A) (k : A -> M B) P Q T,
  hoare P m Q -> (forall a, hoare (Q a) (k a) T) -> hoare P (bind m k) T.
Proof.
  intros A B m k P Q T Hm Hk s HP. unfold bind. specialize (Hm s HP).
  destruct (m s) as [[a|e|] s']; auto.
  destruct Hm as [HQ I1]. specialize (Hk a s' HQ). destruct (k a s') as [[b|e|] s'']; auto.
  - destruct Hk as [HT I2]. split; auto. eapply incl_tran; eauto.
  - destruct Hk as [N F]. split; auto. eapply faulty_incl; eauto.
Qed.

Lemma h_conseq : forall A (m : M A) (P P' : st -> Prop) (Q Q' : A -> st -> Prop),
  hoare P' m Q' -> (forall s, P s -> P' s) -> (forall a s, Q' a s -> Q a s) -> hoare P m Q.
Proof.
  intros A m P P' Q Q' H HP HQ s S. specialize (H s (HP s S)).
  destruct (m s) as [[a|e|] s']; auto. destruct H; auto.
Qed.

(* assertions that do not look at the fates *)
Definition nofate (P : st -> Prop) : Prop :=
  forall r f d f', P (mkSt r f d) -> P (mkSt r f' d).

Lemma h_may_fail : forall e P, e <> ENoent -> nofate P -> hoare P (may_fail e) (fun _ => P).
Proof.
  intros e P N NF [r f d] HP. unfold may_fail, next_fate. cbn [s_fates].
  destruct f as [|[|n] f]; cbn.
  - split; [auto|apply incl_refl].
  - split; [eapply NF; eauto|apply incl_tl, incl_refl].
  - split; auto. exists n. left; auto.
Qed.

Lemma h_get : forall P, hoare P get_repo (fun r s => P s /\ r = s_repo s).
Proof. intros P s HP. cbn. split; [auto|apply incl_refl]. Qed.

Lemma h_set : forall r (P Q : st -> Prop),
  (forall s, P s -> Q (mkSt r (s_fates s) (s_descs s))) -> hoare P (set_repo r) (fun _ => Q).
Proof. intros r P Q H s HP. cbn. split; [auto|apply incl_refl]. Qed.

Lemma h_pre : forall A (m : M A) (P : st -> Prop) Q, (forall s, P s -> hoare (fun x => x = s) m Q) -> hoare P m Q.
Proof. intros A m P Q H s HP. apply (H s HP s eq_refl). Qed.

Lemma h_ex : forall A X (m : M A) (P : X -> st -> Prop) Q,
  (forall x, hoare (P x) m Q) -> hoare (fun s => exists x, P x s) m Q.
Proof. intros A X m P Q H s (x & HP). apply (H x); auto. Qed.

Lemma h_and : forall A (m : M A) (F : Prop) P Q,
  (F -> hoare P m Q) -> hoare (fun s => F /\ P s) m Q.
Proof. intros A m F P Q H s (HF & HP). apply H; auto. Qed.

(* ---- reading segments ---- *)
Definition segs_are (S : lsid -> option seg) (s : st) : Prop := r_segs (s_repo s) = S.

Lemma h_stat : forall l (P : st -> Prop) g,
  nofate P -> (forall s, P s -> r_segs (s_repo s) l = Some g) -> seg_sized l g ->
  hoare P (stat_lseg l) (fun _ => P).
Proof.
  intros l P g NF HG (Z1 & Z2). unfold stat_lseg.
  eapply h_bind; [apply h_may_fail; [discriminate|auto]|]. intros ?. cbn beta.
  eapply h_bind; [apply h_get|]. intros r. cbn beta.
  apply h_pre. intros s (HP & E0). subst r. rewrite (HG s HP).
  replace (sg_size g >? ls_lsize l + LBK_SIZE) with false by (rewrite Z.gtb_ltb; symmetry; apply Z.ltb_ge; lia).
  apply h_ret. intros s' ->. auto.
Qed.

Lemma h_open : forall l (P : st -> Prop) g,
  nofate P -> (forall s, P s -> r_segs (s_repo s) l = Some g) -> seg_sized l g ->
  hoare P (open_lseg l) (fun x s => x = g /\ P s).
Proof.
  intros l P g NF HG (Z1 & Z2). unfold open_lseg.
  eapply h_bind; [apply h_may_fail; [discriminate|auto]|]. intros ?. cbn beta.
  eapply h_bind; [apply h_get|]. intros r. cbn beta.
  apply h_pre. intros s (HP & E0). subst r. rewrite (HG s HP), Z1.
  cbn [Z.eqb negb].
  replace (sg_size g >? ls_lsize l + LBK_SIZE) with false by (rewrite Z.gtb_ltb; symmetry; apply Z.ltb_ge; lia).
  apply h_ret. intros s' ->. auto.
Qed.

Lemma h_or_noent : forall A (m k h : M A) P Q T,
  hoare P m Q -> (forall a, hoare (Q a) k T) -> hoare P (or_noent m k h) T.
Proof.
  intros A m k h P Q T Hm Hk s HP. unfold or_noent. specialize (Hm s HP).
  destruct (m s) as [[a|e|] s']; auto.
  - destruct Hm as [HQ I1]. specialize (Hk a s' HQ). destruct (k s') as [[b|e|] s'']; auto.
    + destruct Hk as [HT I2]. split; auto. eapply incl_tran; eauto.
    + destruct Hk as [N F]. split; auto. eapply faulty_incl; eauto.
  - destruct Hm as [N F]. destruct e; try (split; auto; discriminate). congruence.
Qed.

Lemma h_require : forall l (P : st -> Prop) g,
  nofate P -> (forall s, P s -> r_segs (s_repo s) l = Some g) -> seg_sized l g ->
  hoare P (require_lseg l) (fun _ => P).
Proof.
  intros l P g NF HG SZ. unfold require_lseg.
  eapply h_or_noent; [eapply h_stat; eauto|]. intros ?. cbn beta.
  eapply h_bind; [eapply h_open; eauto|]. intros x. apply h_ret. intros s (_ & H). auto.
Qed.

Lemma reads_seg : forall R a b, proper a -> reads R a b ->
  exists g, r_segs R (la_lsid a) = Some g /\ la_end a <= sg_size g /\ b = sread g (la_pos a) (la_len a).
Proof.
  intros R a b (_ & _ & _ & _ & _ & _ & P0 & L0 & _) (LB & RB).
  assert (LL : (0 < length b)%nat) by lia.
  pose proof (RB (length b - 1)%nat ltac:(lia)) as H.
  unfold seg_byte in H. destruct (r_segs R (la_lsid a)) as [g|] eqn:G; [|discriminate].
  exists g. split; auto.
  destruct ((0 <=? la_pos a + Z.of_nat (length b - 1)) && (la_pos a + Z.of_nat (length b - 1) <? sg_size g)) eqn:C; [|discriminate].
  apply andb_true_iff in C. destruct C as [C1 C2]. apply Z.leb_le in C1. apply Z.ltb_lt in C2.
  split; [unfold la_end; lia|].
  unfold sread. rewrite <- LB.
  apply nth_ext with (d := 0) (d' := 0).
  - rewrite map_length, seq_length; auto.
  - intros i Hi. specialize (RB i Hi). unfold seg_byte in RB. rewrite G in RB.
    destruct ((0 <=? la_pos a + Z.of_nat i) && (la_pos a + Z.of_nat i <? sg_size g)); [|discriminate].
    injection RB as Q. rewrite <- Q. clear Q.
    rewrite nth_indep with (d' := sg_at g (la_pos a + Z.of_nat 0)) by (rewrite map_length, seq_length; auto).
    rewrite (map_nth (fun i => sg_at g (la_pos a + Z.of_nat i))).
    rewrite seq_nth by auto. reflexivity.
Qed.

(* ---- exporting ---- *)
Definition here (r : repo) (d : list desc) (s : st) : Prop := s_repo s = r /\ s_descs s = d.
Lemma nofate_here : forall r d, nofate (here r d).
Proof. intros r d r' f d' f' (H1 & H2). split; auto. Qed.

Lemma h_here : forall A (m : M A) (P0 : repo -> list desc -> Prop) Q,
  (forall r d, P0 r d -> hoare (here r d) m Q) ->
  hoare (fun s => P0 (s_repo s) (s_descs s)) m Q.
Proof. intros A m P0 Q H s HP. apply (H _ _ HP). split; auto. Qed.

Lemma h_read_at : forall r d a g,
  r_segs r (la_lsid a) = Some g -> seg_sized (la_lsid a) g -> proper a -> la_end a <= sg_size g ->
  hoare (here r d) (read_at a) (fun b s => b = sread g (la_pos a) (la_len a) /\ here r d s).
Proof.
  intros r d a g G SZ PR EN. unfold read_at.
  eapply h_bind; [eapply (h_open _ (here r d)); [apply nofate_here| |exact SZ]|].
  { intros s (-> & _). exact G. }
  intros x. cbn beta. apply h_and. intros ->.
  destruct PR as (_ & _ & _ & _ & _ & _ & P0 & L0 & LE).
  replace (sg_size g <? la_end a) with false by (symmetry; apply Z.ltb_ge; lia).
  replace (la_pos a <? 0) with false by (symmetry; apply Z.ltb_ge; lia).
  replace (la_end a >? ls_lsize (la_lsid a) + LBK_SIZE) with false
    by (rewrite Z.gtb_ltb; symmetry; apply Z.ltb_ge; unfold la_end, LBK_SIZE; lia).
  eapply h_bind; [apply h_may_fail; [discriminate|apply nofate_here]|]. intros ?. cbn beta.
  apply h_ret. intros s HS. auto.
Qed.

Lemma h_stage_bytes : forall r d lk g,
  r_segs r (la_lsid (lk_addr lk)) = Some g -> seg_sized (la_lsid (lk_addr lk)) g ->
  proper (lk_addr lk) -> la_end (lk_addr lk) <= sg_size g ->
  hoare (here r d) (stage_bytes lk)
    (fun b s => b = sread g (la_pos (lk_addr lk)) (la_len (lk_addr lk)) /\ here r d s).
Proof.
  intros r d lk g G SZ PR EN. unfold stage_bytes.
  eapply h_bind; [eapply (h_require _ (here r d)); [apply nofate_here| |exact SZ]|].
  { intros s (-> & _). exact G. }
  intros ?. cbn beta.
  eapply h_bind; [eapply (h_open _ (here r d)); [apply nofate_here| |exact SZ]|].
  { intros s (-> & _). exact G. }
  intros x. cbn beta. apply h_and. intros _. apply h_read_at; auto.
Qed.

Lemma upd_pack_same : forall r c v, r_packs (upd_pack r c v) c = Some v.
Proof. intros. cbn. rewrite caddr_eqb_refl; auto. Qed.
Lemma upd_pack_other : forall r c v x, x <> c -> r_packs (upd_pack r c v) x = r_packs r x.
Proof. intros. cbn. rewrite caddr_eqb_neq; auto. Qed.

Lemma overwrite_short : forall b e, (length e <= length b)%nat -> overwrite b e = b.
Proof. intros b e H. unfold overwrite. rewrite skipn_all2 by auto. apply app_nil_r. Qed.

Lemma h_save_pack : forall r d c b,
  (length (contents (r_packs r c)) <= length b)%nat ->
  hoare (here r d) (save_pack c b) (fun _ s => here (upd_pack r c b) d s).
Proof.
  intros r d c b L. unfold save_pack.
  eapply h_bind; [apply h_may_fail; [discriminate|apply nofate_here]|]. intros ?. cbn beta.
  intros s (Hr & Hd). unfold next_fate. destruct s as [r0 f0 d0]. cbn in Hr, Hd. subst r0 d0.
  cbn [s_fates s_repo s_descs]. rewrite overwrite_short by auto.
  destruct f0 as [|[|n] f0]; cbn.
  - split; [split; auto|apply incl_refl].
  - split; [split; auto|apply incl_tl, incl_refl].
  - split; [discriminate|]. exists n. left; auto.
Qed.

Section Export.
(* B: whether a descriptor of the boot record is among those made *)
Variables (E : env) (R : repo) (v : vol) (B : bool).
Hypothesis SO : sound E R v.
Hypothesis PO : packs_ok E R.
Hypothesis CF : clash_free E R v.

Definition known (e : bytes) : Prop :=
  (exists a, proper a /\ reads R a e) \/ boot_ok E R (v_boot v) e.

Lemma known_stored : forall e, known e -> stored E R v e.
Proof. intros e [(a & _ & H)|H]; [right; left; eauto|right; right; auto]. Qed.

Lemma known_len : forall e, known e -> 0 <= Z.of_nat (length e) < 2 ^ 32.
Proof.
  intros e [(a & PR & (L & _))|(_ & _ & L & _)]; [|lia].
  destruct PR as (_ & LS & _ & _ & _ & _ & P0 & L0 & LE). lia.
Qed.

Definition pinv (r : repo) : Prop :=
  forall c e, r_packs r c = Some e ->
    r_packs R c = Some e \/ (known e /\ c = caddr_of E e (ca_type c)).

Definition dinv (r : repo) (d : desc) : Prop :=
  (B = true /\ d_laddr d = boot_laddr (ls_lvid (la_lsid (v_super v))) /\ d_caddr d = v_boot v /\
   exists b, boot_ok E R (v_boot v) b /\ r_packs r (v_boot v) = Some b) \/
  (proper (d_laddr d) /\
   exists b, reads R (d_laddr d) b /\ d_caddr d = caddr_of E b CT_ENCSEG /\
             r_packs r (d_caddr d) = Some b).

Definition inv (r : repo) (d : list desc) : Prop :=
  r_segs r = r_segs R /\ r_blobs r = r_blobs R /\ r_refs r = r_refs R /\
  pinv r /\ Forall (dinv r) d.

Lemma ca_size_of : forall b t, known b -> ca_size (caddr_of E b t) = Z.of_nat (length b).
Proof. intros b t K. cbn. apply u32_id. apply known_len; auto. Qed.

Lemma same_obj : forall r b t e, pinv r -> known b ->
  r_packs r (caddr_of E b t) = Some e -> length e = length b -> e = b.
Proof.
  intros r b t e PI K PK L. destruct (PI _ _ PK) as [H|(K2 & C)].
  - destruct (PO _ _ H) as (_ & HH). rewrite ca_size_of in HH by auto.
    apply CF; [left; eauto|apply known_stored; auto|auto|].
    rewrite HH by lia. reflexivity.
  - apply CF; [apply known_stored; auto|apply known_stored; auto|auto|].
    cbn in C. inversion C. congruence.
Qed.

Lemma short_obj : forall r b t e, pinv r -> known b ->
  r_packs r (caddr_of E b t) = Some e -> (length e <= length b)%nat.
Proof.
  intros r b t e PI K PK. destruct (PI _ _ PK) as [H|(K2 & C)].
  - destruct (PO _ _ H) as (HL & _). rewrite ca_size_of in HL by auto. lia.
  - assert (X : ca_size (caddr_of E b t) = Z.of_nat (length e)).
    { rewrite C. apply ca_size_of; auto. }
    rewrite ca_size_of in X by auto. lia.
Qed.

Lemma boot_unique : forall b1 b2, boot_ok E R (v_boot v) b1 -> boot_ok E R (v_boot v) b2 -> b1 = b2.
Proof.
  intros b1 b2 (_ & (e1 & H1 & F1) & _) (_ & (e2 & H2 & F2) & _). congruence.
Qed.

Lemma boot_caddr : forall b, boot_ok E R (v_boot v) b -> v_boot v = caddr_of E b CT_BOOTREC.
Proof.
  intros b (_ & _ & L & C & _). rewrite C. unfold caddr_of. rewrite L. reflexivity.
Qed.

Lemma inv_put : forall r d b t, inv r d -> known b -> inv (upd_pack r (caddr_of E b t) b) d.
Proof.
  intros r d b t (I1 & I2 & I3 & PI & DI) K. split; [|split; [|split; [|split]]]; auto.
  - intros c e H. destruct (caddr_dec c (caddr_of E b t)) as [->|N].
    + rewrite upd_pack_same in H. inversion H; subst. right. split; auto.
    + rewrite upd_pack_other in H by auto. auto.
  - eapply Forall_impl; [|exact DI]. intros x DX. destruct DX as [(XB & X1 & X2 & b0 & X3 & X4)|(X1 & b0 & X2 & X3 & X4)].
    + left. split; auto. split; auto. split; auto. exists b0. split; auto.
      destruct (caddr_dec (v_boot v) (caddr_of E b t)) as [EQ|N].
      * rewrite EQ, upd_pack_same. f_equal. rewrite EQ in X4. symmetry.
        assert (L : length b0 = length b).
        { pose proof (boot_caddr _ X3) as BC. rewrite BC in EQ. unfold caddr_of in EQ. inversion EQ as [[A1 A2 A3]].
          rewrite !u32_id in A2 by (apply known_len; auto; right; auto). lia. }
        eapply same_obj; eauto.
      * rewrite upd_pack_other; auto.
    + right. split; auto. exists b0. split; auto. split; auto. rewrite X3 in *.
      destruct (caddr_dec (caddr_of E b0 CT_ENCSEG) (caddr_of E b t)) as [EQ|N].
      * rewrite EQ, upd_pack_same. f_equal. symmetry.
        assert (L : length b0 = length b).
        { unfold caddr_of in EQ. inversion EQ as [[A1 A2 A3]].
          rewrite !u32_id in A2 by (apply known_len; auto; left; eauto). lia. }
        rewrite EQ in X4. eapply same_obj; eauto.
      * rewrite upd_pack_other; auto.
Qed.

Definition put_post (d : list desc) (c : caddr) (b : bytes) (s : st) : Prop :=
  s_descs s = d /\ inv (s_repo s) d /\ r_packs (s_repo s) c = Some b.

Lemma h_send_pack : forall r d b t, inv r d -> known b ->
  hoare (here r d) (send_pack (caddr_of E b t) b) (fun _ => put_post d (caddr_of E b t) b).
Proof.
  intros r d b t I K. unfold send_pack.
  eapply h_bind; [apply h_may_fail; [discriminate|apply nofate_here]|]. intros ?. cbn beta.
  eapply h_bind; [apply h_get|]. intros r'. cbn beta.
  apply h_pre. intros s ((Hr & Hd) & E0). rewrite E0, Hr.
  pose proof I as (_ & _ & _ & PI & _).
  assert (SAVE : (length (contents (r_packs r (caddr_of E b t))) <= length b)%nat ->
     hoare (fun x => x = s) (save_pack (caddr_of E b t) b) (fun _ => put_post d (caddr_of E b t) b)).
  { intros L. eapply h_conseq; [apply (h_save_pack r d); exact L| |].
    - intros s0 ->. split; auto.
    - intros _ s0 (S1 & S2). split; auto. rewrite S1. split; [apply inv_put; auto|apply upd_pack_same]. }
  destruct (r_packs r (caddr_of E b t)) as [e|] eqn:PK.
  - destruct (Nat.eqb (length e) (length b)) eqn:L.
    + apply Nat.eqb_eq in L. apply h_ret. intros s0 ->. split; auto. rewrite Hr. split; auto.
      rewrite PK. f_equal. eapply same_obj; eauto.
    + apply SAVE. cbn [contents]. eapply short_obj; eauto.
  - apply SAVE. cbn. lia.
Qed.

Lemma h_export_seg : forall r d a b, inv r d -> proper a -> reads R a b ->
  hoare (here r d) (export_seg E a)
    (fun c s => c = caddr_of E b CT_ENCSEG /\ put_post d c b s).
Proof.
  intros r d a b I PR RB. unfold export_seg.
  destruct (reads_seg _ _ _ PR RB) as (g & G & EN & BE).
  pose proof I as (IS & _).
  eapply h_bind; [apply h_may_fail; [discriminate|apply nofate_here]|]. intros ?. cbn beta.
  eapply h_bind; [apply (h_read_at r d a g); auto|].
  { rewrite IS; auto. }
  { apply (so_sized _ _ _ SO); auto. }
  intros b'. cbn beta. rewrite <- BE. apply h_and. intros ->.
  eapply h_bind; [apply h_send_pack; [exact I|left; eauto]|]. intros ?. cbn beta.
  apply h_ret. auto.
Qed.

Lemma h_export_boot : forall r d, inv r d ->
  hoare (here r d) (export_boot E v)
    (fun c s => c = v_boot v /\ exists b, boot_ok E R (v_boot v) b /\ put_post d c b s).
Proof.
  intros r d I. destruct (so_boot _ _ _ SO) as (b & B0).
  pose proof (boot_caddr _ B0) as BC.
  pose proof B0 as (BR & (e & BE & BF) & BL & BCC & br & BD & BN).
  unfold export_boot. rewrite BC at 1. cbn [ca_type caddr_of]. rewrite Z.eqb_refl. cbn [negb].
  pose proof I as (_ & IB & IR & _).
  assert (LE : (1024 <= length e)%nat).
  { rewrite <- BF in BL. rewrite firstn_length in BL. lia. }
  eapply h_bind with (Q := fun x s => x = br /\ here r d s).
  - unfold load_bootrec.
    eapply h_bind; [apply h_may_fail; [discriminate|apply nofate_here]|]. intros ?. cbn beta.
    eapply h_bind; [apply h_get|]. intros r'. cbn beta.
    apply h_pre. intros s ((Hr & Hd) & E0). subst r'. rewrite Hr, IR, BR. cbn [negb].
    eapply h_bind with (Q := fun _ => here r d).
    { eapply h_conseq; [apply (h_may_fail EIo (here r d)); [discriminate|apply nofate_here]| |].
      - intros s0 ->. split; auto.
      - auto. }
    intros ?. cbn beta. rewrite IB, BE.
    replace (Z.of_nat (length e) <? BOOTREC_SIZE) with false by (symmetry; apply Z.ltb_ge; unfold BOOTREC_SIZE; lia).
    change (Z.to_nat BOOTREC_SIZE) with 1024%nat. rewrite BF, <- BC, caddr_eqb_refl. cbn [negb]. rewrite BD.
    apply h_ret. auto.
  - intros x. cbn beta. apply h_and. intros ->. rewrite BN.
    eapply h_bind.
    + rewrite BC. apply h_send_pack; [exact I|right; exact B0].
    + intros ?. cbn beta. apply h_ret. intros s H. rewrite <- BC in H. split; auto. exists b. auto.
Qed.

Lemma is_bootrec_proper : forall a, proper a -> is_bootrec a = false.
Proof.
  intros a (_ & _ & _ & _ & _ & H & _). unfold is_bootrec. apply Z.eqb_neq. unfold LT_BOOTREC in *. lia.
Qed.

(* one address exported: everything as before, one more descriptor *)
Lemma h_export_laddr : forall r d a, inv r d ->
  (proper a /\ (exists b, reads R a b)) \/
  (B = true /\ a = boot_laddr (ls_lvid (la_lsid (v_super v)))) ->
  hoare (here r d) (export_laddr E v a)
    (fun _ s => inv (s_repo s) (s_descs s) /\ exists c, s_descs s = mkDesc c a :: d).
Proof.
  intros r d a I HA. unfold export_laddr.
  eapply h_bind; [apply h_may_fail; [discriminate|apply nofate_here]|]. intros ?. cbn beta.
  destruct HA as [(PR & b & RB)|(HB & HA)].
  - rewrite is_bootrec_proper by auto.
    eapply h_bind; [apply h_export_seg; eauto|]. intros c. cbn beta.
    apply h_pre. intros s (C & D & IV & PK).
    intros s0 ->. cbn. split; [|apply incl_refl]. split; [|exists c; rewrite D; auto].
    destruct IV as (I1 & I2 & I3 & I4 & I5). split; [|split; [|split; [|split]]]; auto.
    rewrite D. constructor; auto. right. cbn. split; auto. exists b. split; auto.
  - replace (is_bootrec a) with true by (subst a; reflexivity).
    eapply h_bind; [apply h_export_boot; eauto|]. intros c. cbn beta.
    apply h_pre. intros s (C & b & B0 & D & IV & PK).
    intros s0 ->. cbn. split; [|apply incl_refl]. split; [|exists c; rewrite D; auto].
    destruct IV as (I1 & I2 & I3 & I4 & I5). split; [|split; [|split; [|split]]]; auto.
    rewrite D. constructor; auto. left. cbn. split; auto. split; auto. split; auto. exists b. rewrite C in *. auto.
Qed.

(* ---- steps ---- *)
Definition step (m : M unit) (post : list desc -> Prop) : Prop :=
  forall r d, inv r d -> hoare (here r d) m
    (fun _ s => inv (s_repo s) (s_descs s) /\ incl d (s_descs s) /\ post (s_descs s)).
Definition mono (p : list desc -> Prop) : Prop := forall d d', incl d d' -> p d -> p d'.

Lemma step_ret : forall p : list desc -> Prop, (forall d, p d) -> step (ret tt) p.
Proof. intros p H r d I. apply h_ret. intros s (-> & ->). split; auto. split; [apply incl_refl|auto]. Qed.

Lemma step_seq : forall m1 m2 p1 p2, mono p1 -> step m1 p1 -> step m2 p2 ->
  step (m1 ;;; m2) (fun d => p1 d /\ p2 d).
Proof.
  intros m1 m2 p1 p2 MO H1 H2 r d I. eapply h_bind; [apply H1; auto|]. intros ?. cbn beta.
  apply h_pre. intros s (I1 & L1 & Q1).
  eapply h_conseq; [apply (H2 (s_repo s) (s_descs s)); auto| |].
  - intros s0 ->. split; auto.
  - intros ? s0 (I2 & L2 & Q2). split; auto. split; [eapply incl_tran; eauto|]. split; auto. eapply MO; eauto.
Qed.

Lemma step_weak : forall m (p q : list desc -> Prop), step m p -> (forall d, p d -> q d) -> step m q.
Proof.
  intros m p q H W r d I. eapply h_conseq; [apply H; eauto|auto|].
  intros ? s (X & Y & Z). auto.
Qed.

(* address a lies within a described one *)
Definition cov (a : laddr) (ds : list desc) : Prop :=
  exists d, In d ds /\ proper (d_laddr d) /\ la_lsid (d_laddr d) = la_lsid a /\
    la_pos (d_laddr d) <= la_pos a /\ la_end a <= la_end (d_laddr d).
Lemma cov_mono : forall a, mono (cov a).
Proof. intros a d d' I (x & X & Y). exists x. auto. Qed.

Definition okaddr (a : laddr) : Prop := proper a /\ exists b, reads R a b.

Lemma step_export_all : forall l, Forall okaddr l ->
  step (export_all E v l) (fun ds => forall a, In a l -> exists d, In d ds /\ d_laddr d = a).
Proof.
  induction l as [|a l IH]; intros F; cbn [export_all].
  - apply step_ret. intros ? ? [].
  - inversion F; subst. eapply step_weak.
    + apply step_seq with (p1 := fun ds => exists d, In d ds /\ d_laddr d = a); [| |apply IH; auto].
      * intros d d' I (x & X & Y). exists x; auto.
      * intros r d I. eapply h_conseq; [apply h_export_laddr; [exact I|left; assumption]|auto|].
        intros ? s (IV & c & D). split; auto. rewrite D. split; [apply incl_tl, incl_refl|].
        exists (mkDesc c a). split; [left; auto|auto].
    + cbn beta. intros d (X & Y) a' [->|IN]; auto.
Qed.

(* ---- merging neighbouring addresses ---- *)
Lemma proper_nonnull : forall a, proper a -> laddr_isnull a = false.
Proof.
  intros a (_ & LS & VI & _ & _ & LT & P0 & L0 & LE). unfold laddr_isnull, lsid_isnull, off_isnull, LT_BOOTREC, LT_NONE, OFF_NULL in *.
  lia.
Qed.

Definition covers (m a : laddr) : Prop :=
  la_lsid m = la_lsid a /\ la_pos m <= la_pos a /\ la_end a <= la_end m.
Lemma covers_refl : forall a, covers a a.
Proof. intros a. split; auto. split; lia. Qed.

Lemma ok_join : forall p a, okaddr p -> okaddr a -> laddr_isnext p a = true ->
  let m := mkLaddr (la_lsid p) (la_pos p) (la_len p + la_len a) in
  okaddr m /\ covers m p /\ covers m a.
Proof.
  intros p a (PP & b1 & L1 & R1) (PA & b2 & L2 & R2) N m.
  unfold laddr_isnext in N. apply andb_true_iff in N. destruct N as (N & NE).
  apply andb_true_iff in N. destruct N as (N & N3).
  apply andb_true_iff in N. destruct N as (N1 & N2).
  apply Z.eqb_eq in N2. apply lsid_eqb_eq in NE.
  destruct PP as (A1 & A2 & A3 & A4 & A5 & A6 & A7 & A8 & A9).
  destruct PA as (B1 & B2 & B3 & B4 & B5 & B6 & B7 & B8 & B9).
  unfold la_end in N2. split; [split|split].
  - unfold proper, m; cbn. rewrite NE in *. intuition lia.
  - exists (b1 ++ b2). split.
    + rewrite app_length, L1, L2. unfold m; cbn. lia.
    + unfold m; cbn. intros i Hi. rewrite app_length in Hi.
      destruct (Nat.lt_ge_cases i (length b1)) as [I|I].
      * rewrite app_nth1 by auto. apply R1; auto.
      * rewrite app_nth2 by auto. rewrite NE, <- R2 by lia. f_equal. rewrite N2, L1. lia.
  - split; auto. unfold m, la_end; cbn. lia.
  - split; auto. unfold m, la_end; cbn. lia.
Qed.

Lemma lmap_append_ok : forall m a, Forall okaddr m -> okaddr a ->
  Forall okaddr (lmap_append m a) /\
  (exists x, In x (lmap_append m a) /\ covers x a) /\
  (forall y, In y m -> exists x, In x (lmap_append m a) /\ covers x y).
Proof.
  intros m a FM OA. unfold lmap_append. rewrite proper_nonnull by apply OA.
  destruct m as [|p q].
  - split; [constructor; auto|]. split; [exists a; split; [left; auto|apply covers_refl]|]. intros y [].
  - inversion FM; subst. destruct (laddr_isnext p a) eqn:N.
    + destruct (ok_join p a) as (J1 & J2 & J3); auto.
      split; [constructor; auto|]. split; [eexists; split; [left; reflexivity|auto]|].
      intros y [<-|IN]; [eexists; split; [left; reflexivity|auto]|].
      exists y. split; [right; auto|apply covers_refl].
    + split; [constructor; auto|]. split; [exists a; split; [left; auto|apply covers_refl]|].
      intros y IN. exists y. split; [right; auto|apply covers_refl].
Qed.

Lemma covers_trans : forall a b c, covers a b -> covers b c -> covers a c.
Proof. intros a b c (X1 & X2 & X3) (Y1 & Y2 & Y3). split; [congruence|]. lia. Qed.

Lemma lmap_fold_ok : forall l m, Forall okaddr m -> Forall okaddr l ->
  Forall okaddr (fold_left lmap_append l m) /\
  (forall y, In y m \/ In y l -> exists x, In x (fold_left lmap_append l m) /\ covers x y).
Proof.
  induction l as [|a l IH]; intros m FM FL; cbn [fold_left].
  - split; auto. intros y [H|[]]. exists y. split; auto. apply covers_refl.
  - inversion FL; subst. destruct (lmap_append_ok m a) as (A1 & (x & A2 & A2') & A3); auto.
    destruct (IH (lmap_append m a)) as (B1 & B2); auto.
    split; auto. intros y [H|[<-|H]].
    + destruct (A3 y H) as (z & Z1 & Z2). destruct (B2 z) as (w & W1 & W2); auto.
      exists w. split; auto. eapply covers_trans; eauto.
    + destruct (B2 x) as (w & W1 & W2); auto. exists w. split; auto. eapply covers_trans; eauto.
    + apply B2. auto.
Qed.

Lemma lmap_of_ok : forall l, Forall okaddr l ->
  Forall okaddr (lmap_of l) /\ (forall y, In y l -> exists x, In x (lmap_of l) /\ covers x y).
Proof.
  intros l F. destruct (lmap_fold_ok l []) as (A & B0); auto. unfold lmap_of. split.
  - apply Forall_rev; auto.
  - intros y H. destruct (B0 y) as (x & X & Y); auto. exists x. split; auto. apply -> in_rev. auto.
Qed.

Lemma step_export_lmap : forall l, Forall okaddr l ->
  step (export_all E v (lmap_of l)) (fun ds => forall a, In a l -> cov a ds).
Proof.
  intros l F. destruct (lmap_of_ok l F) as (A & B0).
  eapply step_weak; [apply step_export_all; exact A|].
  cbn beta. intros ds H a IN. destruct (B0 a IN) as (x & X1 & X2 & X3 & X4).
  destruct (H x X1) as (d & D1 & D2). exists d. rewrite D2. split; auto.
  split; [|auto]. rewrite Forall_forall in A. apply A; auto.
Qed.

(* ---- the walk ---- *)
Fixpoint below (h : nat) (lk : link) (ds : list desc) : Prop :=
  match h with
  | O => forall b sl x, reads R (lk_addr lk) b -> e_leaf E lk b = Some sl -> In x sl ->
         0 < sl_used x -> cov (sl_addr x) ds
  | S h' => forall b sl c, reads R (lk_addr lk) b -> e_node E h lk b = Some sl ->
            In (Some c) sl -> cov (lk_addr c) ds /\ below h' c ds
  end.

Lemma below_mono : forall h lk, mono (below h lk).
Proof.
  induction h as [|h IH]; intros lk d d' I H; cbn [below] in *.
  - intros. eapply cov_mono; eauto.
  - intros b sl c H1 H2 H3. destruct (H b sl c H1 H2 H3) as (X & Y).
    split; [eapply cov_mono; eauto|eapply IH; eauto].
Qed.

Lemma reads_unique : forall a b1 b2, reads R a b1 -> reads R a b2 -> b1 = b2.
Proof.
  intros a b1 b2 (L1 & H1) (L2 & H2). apply (nth_ext _ _ 0 0); [congruence|].
  intros i Hi. assert (X := H1 i Hi). rewrite H2 in X by congruence. congruence.
Qed.

Lemma h_stage_of : forall r d lk b, inv r d -> proper (lk_addr lk) -> reads R (lk_addr lk) b ->
  hoare (here r d) (stage_bytes lk) (fun x s => x = b /\ here r d s).
Proof.
  intros r d lk b I PR RB. destruct (reads_seg _ _ _ PR RB) as (g & G & EN & BE).
  pose proof I as (IS & _). rewrite BE. apply h_stage_bytes; auto.
  - rewrite IS; auto.
  - apply (so_sized _ _ _ SO); auto.
Qed.

Lemma dense_in : forall A (sl : list (option A)) c, dense (Some c :: sl) -> dense sl.
Proof.
  intros A sl c D i j x L H. apply (D (S i) (S j) x); auto. lia.
Qed.
Lemma dense_none : forall A (sl : list (option A)) c, dense (None :: sl) -> ~ In (Some c) sl.
Proof.
  intros A sl c D IN. apply In_nth_error in IN. destruct IN as (n & N).
  destruct (D 0%nat (S n) c) as (x & X); [lia|auto|]. discriminate.
Qed.

Lemma step_walk_slots : forall (f : link -> M unit) (post : link -> list desc -> Prop) sl,
  (forall c, mono (post c)) -> dense sl -> (forall c, In (Some c) sl -> step (f c) (post c)) ->
  step (walk_slots f sl) (fun ds => forall c, In (Some c) sl -> post c ds).
Proof.
  intros f post sl MO. induction sl as [|o sl IH]; intros D H; cbn [walk_slots].
  - apply step_ret. intros ? ? [].
  - destruct o as [lk|].
    + intros r d I s HS.
      pose proof (H lk (or_introl eq_refl) r d I s HS) as X.
      destruct (f lk s) as [[x|e|] s'].
      * destruct X as ((I1 & L1 & P1) & F1).
        pose proof (IH (dense_in _ _ _ D) (fun c Hc => H c (or_intror Hc)) _ _ I1 s' (conj eq_refl eq_refl)) as Y.
        destruct (walk_slots f sl s') as [[y|e|] s2].
        -- destruct Y as ((I2 & L2 & P2) & F2). split; [|eapply incl_tran; eauto].
           split; auto. split; [eapply incl_tran; eauto|].
           intros c [EQ|IN]; [inversion EQ; subst; eapply MO; eauto|auto].
        -- destruct Y as (Y1 & n & Y2). split; auto. exists n. auto.
        -- auto.
      * destruct X as (X1 & X2). destruct e; try contradiction; (split; [discriminate|auto]).
      * destruct X.
    + apply step_ret. intros d c [EQ|IN]; [discriminate|]. exfalso. eapply dense_none; eauto.
Qed.

Lemma node_live : forall h lk, node_at E R v h lk -> okaddr (lk_addr lk).
Proof. intros h lk N. apply (so_live _ _ _ SO). eapply lv_node; eauto. Qed.

Lemma step_walk_node : forall h lk, node_at E R v h lk ->
  step (walk_node E (inspect_hook E v) h lk) (below h lk).
Proof.
  induction h as [|h IH]; intros lk N; cbn [walk_node];
    destruct (node_live _ _ N) as (PR & b & RB).
  - intros r d I. unfold stage_leaf. destruct (so_leaf _ _ _ SO _ _ N RB) as (sl & SL).
    eapply h_bind with (Q := fun x s => x = sl /\ here r d s).
    + eapply h_bind; [apply (h_stage_of r d lk b); auto|]. intros x. cbn beta. apply h_and. intros ->.
      rewrite SL. apply h_ret. auto.
    + intros x. cbn beta. apply h_and. intros ->. cbn [inspect_hook].
      revert r d I. eapply step_weak; [apply step_export_lmap|].
      * rewrite Forall_map, Forall_forall. intros x IN. apply filter_In in IN. destruct IN as (IN & U).
        apply (so_live _ _ _ SO). eapply lv_block; eauto. lia.
      * cbn beta. intros ds H b' sl' x RB' SL' IN U. rewrite (reads_unique _ _ _ RB' RB) in SL'.
        rewrite SL in SL'. inversion SL'; subst sl'. apply H. apply in_map. apply filter_In. split; auto. lia.
  - intros r d I. unfold stage_node. destruct (so_node _ _ _ SO _ _ _ N RB) as (sl & SL & D).
    assert (CH : forall c, In (Some c) sl -> node_at E R v h c) by (intros; eapply na_child; eauto).
    eapply h_bind with (Q := fun x s => x = sl /\ here r d s).
    + eapply h_bind; [apply (h_stage_of r d lk b); auto|]. intros x. cbn beta. apply h_and. intros ->.
      rewrite SL. apply h_ret. auto.
    + intros x. cbn beta. apply h_and. intros ->. cbn [inspect_hook].
      revert r d I. eapply step_weak.
      * apply step_seq; [|apply (step_walk_slots _ (fun c => below h c)); auto|].
        -- intros d d' L X c IN. eapply below_mono; eauto.
        -- intros. apply below_mono.
        -- apply step_export_lmap. rewrite Forall_forall. intros a IN. apply in_flat_map in IN.
           destruct IN as (o & O1 & O2). destruct o as [c|]; [|destruct O2].
           destruct O2 as [<-|[]]. eapply node_live. apply CH; eauto.
      * cbn beta. intros ds (H1 & H2) b' sl' c RB' SL' IN. rewrite (reads_unique _ _ _ RB' RB) in SL'.
        rewrite SL in SL'. inversion SL'; subst sl'. split; auto.
        apply H2. apply in_flat_map. exists (Some c). split; auto. left; auto.
Qed.

Lemma step_walk_spaces : forall roots, incl roots (v_roots v) ->
  step (walk_spaces E (inspect_hook E v) roots) (fun ds => forall lk, In (Some lk) roots -> below 4 lk ds).
Proof.
  induction roots as [|o q IH]; intros L; cbn [walk_spaces].
  - apply step_ret. intros ? ? [].
  - eapply step_weak.
    + apply step_seq with (p1 := fun ds => forall lk, o = Some lk -> below 4 lk ds).
      * intros d d' I X lk EQ. eapply below_mono; eauto.
      * unfold walk_tree. cbn [inspect_hook].
        eapply step_weak.
        -- apply step_seq with (p2 := fun _ => True)
             (p1 := fun ds => forall lk, o = Some lk -> below 4 lk ds).
           ++ intros d d' I X lk EQ. eapply below_mono; eauto.
           ++ destruct o as [lk|]; [|apply step_ret; discriminate].
              assert (N : node_at E R v 4 lk) by (apply na_root; apply L; left; auto).
              intros r d I. eapply h_or_noent.
              ** apply (step_walk_node 4 lk N r d I).
              ** intros ?. cbn beta. apply h_ret. intros s (X1 & X2 & X3). split; auto. split; auto.
                 intros lk' EQ. inversion EQ; subst; auto.
           ++ apply step_ret. auto.
        -- cbn beta. intros d (X & _). exact X.
      * apply IH. intros x Hx. apply L. right; auto.
    + cbn beta. intros d (X & Y) lk [EQ|IN]; auto.
Qed.

Definition boot_in (ds : list desc) : Prop :=
  exists d, In d ds /\ d_laddr d = boot_laddr (ls_lvid (la_lsid (v_super v))).

Lemma roots_ok : Forall okaddr (roots_of v).
Proof.
  rewrite Forall_forall. intros a IN. apply in_flat_map in IN.
  destruct IN as (o & O1 & O2). destruct o as [c|]; [|destruct O2].
  destruct O2 as [<-|[]]. eapply node_live. apply na_root; auto.
Qed.

Lemma node_below : forall ds,
  (forall lk, In (Some lk) (v_roots v) -> cov (lk_addr lk) ds /\ below 4 lk ds) ->
  forall h lk, node_at E R v h lk -> cov (lk_addr lk) ds /\ below h lk ds.
Proof.
  intros ds H h lk N. induction N as [lk IN|h lk b sl c N IH RB SL IN]; auto.
  destruct IH as (_ & B0). cbn [below] in B0. eapply B0; eauto.
Qed.

Lemma exact_cov : forall a ds, proper a -> (exists d, In d ds /\ d_laddr d = a) -> cov a ds.
Proof. intros a ds P (d & D1 & D2). exists d. rewrite D2. split; auto. split; auto. split; auto. split; lia. Qed.

Lemma live_cov : forall ds,
  (forall lk, In (Some lk) (v_roots v) -> below 4 lk ds) ->
  (forall a, In a (roots_of v) -> exists d, In d ds /\ d_laddr d = a) ->
  cov (v_super v) ds ->
  forall a, live E R v a -> cov a ds.
Proof.
  intros ds W RT CS.
  assert (NB : forall h lk, node_at E R v h lk -> cov (lk_addr lk) ds /\ below h lk ds).
  { apply node_below. intros lk IN. split; auto. apply exact_cov.
    - apply (node_live 4 lk). apply na_root; auto.
    - apply RT. apply in_flat_map. exists (Some lk). split; auto. left; auto. }
  intros a L. destruct L as [|h lk N|lk b sl x N RB SL IN U].
  - auto.
  - apply (NB h lk N).
  - destruct (NB _ _ N) as (_ & X). cbn [below] in X. eapply X; eauto.
Qed.

Lemma step_export_laddr : forall a, okaddr a -> step (export_laddr E v a) (cov a).
Proof.
  intros a OA r d I. eapply h_conseq; [apply h_export_laddr; [exact I|left; exact OA]|auto|].
  intros ? s (IV & c & D). split; auto. rewrite D. split; [apply incl_tl, incl_refl|].
  apply exact_cov; [apply OA|]. eexists. split; [left; reflexivity|auto].
Qed.
End Export.

Definition bootless (ds : list desc) : Prop := filter (fun d => is_bootrec (d_laddr d)) ds = [].

Lemma inv_bootless : forall E R v r d, inv E R v false r d -> bootless d.
Proof.
  intros E R v r d (_ & _ & _ & _ & DI). unfold bootless.
  induction DI as [|x l DX DL IH]; auto. cbn [filter].
  destruct DX as [(X & _)|(PR & _)]; [discriminate|].
  rewrite is_bootrec_proper by auto. auto.
Qed.
Lemma inv_more : forall E R v r d, inv E R v false r d -> inv E R v true r d.
Proof.
  intros E R v r d (I1 & I2 & I3 & I4 & I5). split; [|split; [|split; [|split]]]; auto.
  eapply Forall_impl; [|exact I5]. intros a [(X & _)|X]; [discriminate|right; auto].
Qed.

Lemma h_export_fs : forall E R v r, sound E R v -> packs_ok E R -> clash_free E R v ->
  inv E R v false r [] ->
  hoare (here r []) (export_fs E v) (fun _ s =>
    inv E R v true (s_repo s) (s_descs s) /\ (forall a, live E R v a -> cov a (s_descs s)) /\
    exists d, filter (fun d => is_bootrec (d_laddr d)) (s_descs s) = [d] /\ d_caddr d = v_boot v).
Proof.
  intros E R v r SO PO CF I. unfold export_fs.
  pose proof (step_walk_spaces E R v false SO PO CF (v_roots v) (incl_refl _)) as S1.
  pose proof (step_export_all E R v false SO PO CF _ (roots_ok _ _ _ SO)) as S2.
  pose proof (step_export_laddr E R v false SO PO CF (v_super v) (so_live _ _ _ SO _ (lv_super _ _ _))) as S3.
  eapply h_bind; [apply (S1 r [] I)|]. intros u0. cbn beta. clear u0.
  apply h_pre. intros s1 (I1 & L1 & P1).
  eapply h_bind with (Q := fun _ s => inv E R v false (s_repo s) (s_descs s) /\
     incl (s_descs s1) (s_descs s) /\ forall a, In a (roots_of v) -> exists d, In d (s_descs s) /\ d_laddr d = a).
  { eapply h_conseq; [apply (S2 _ _ I1)| |]; [intros s ->; split; auto|auto]. }
  intros u0. cbn beta. clear u0. apply h_pre. intros s2 (I2 & L2 & P2).
  eapply h_bind with (Q := fun _ s => inv E R v false (s_repo s) (s_descs s) /\
     incl (s_descs s2) (s_descs s) /\ cov (v_super v) (s_descs s)).
  { eapply h_conseq; [apply (S3 _ _ I2)| |]; [intros s ->; split; auto|auto]. }
  intros u0. cbn beta. clear u0. apply h_pre. intros s3 (I3 & L3 & P3).
  assert (CV : forall a, live E R v a -> cov a (s_descs s3)).
  { apply (live_cov E R v SO).
    - intros lk IN. eapply below_mono; [|apply P1; exact IN]. eapply incl_tran; eauto.
    - intros a IN. destruct (P2 a IN) as (d & D1 & D2). exists d. auto.
    - auto. }
  eapply h_conseq; [apply (h_export_laddr E R v true SO PO CF (s_repo s3) (s_descs s3)); [apply inv_more; exact I3|right; split; reflexivity]| |].
  - intros s ->. split; auto.
  - intros u0 s (IV & c & D). split; auto. rewrite D.
    split; [intros a L; eapply cov_mono; [|apply CV; exact L]; apply incl_tl, incl_refl|].
    exists (mkDesc c (boot_laddr (ls_lvid (la_lsid (v_super v))))).
    destruct IV as (_ & _ & _ & _ & DI). rewrite D in DI. inversion DI as [|? ? DX DL]; subst.
    cbn [filter d_laddr]. change (is_bootrec (boot_laddr (ls_lvid (la_lsid (v_super v))))) with true. cbn beta iota.
    pose proof (inv_bootless _ _ _ _ _ I3) as BL. unfold bootless in BL. rewrite BL. split; auto.
    destruct DX as [(_ & _ & X & _)|(X & _)]; auto.
    exfalso. apply is_bootrec_proper in X. discriminate X.
Qed.

(* ---- the index ---- *)
Definition caddr_wf (c : caddr) : Prop :=
  length (ca_hash c) = 32%nat /\ 0 <= ca_size c < 2 ^ 32 /\ 0 <= ca_type c < 256.
Definition desc_wf (d : desc) : Prop := caddr_wf (d_caddr d) /\ laddr_wf (d_laddr d).

Lemma caddr64b_length : forall c, caddr_wf c -> length (caddr64b_htox c) = 64%nat.
Proof.
  intros c (H & _). unfold caddr64b_htox. rewrite !app_length, le_enc_length, H, repeat_length. reflexivity.
Qed.
Lemma caddr64b_rt : forall c, caddr_wf c -> caddr64b_xtoh (caddr64b_htox c) = c.
Proof.
  intros [h n t] (H1 & H2 & H3). cbn in H1, H2, H3. unfold caddr64b_xtoh, caddr64b_htox. cbn [ca_hash ca_size ca_type].
  f_equal.
  - apply sub_hd; auto.
  - rewrite sub_skip by lia. rewrite H1. cbn [Nat.sub]. rewrite sub_hd by apply le_enc_length.
    apply le_dec_enc. simpl. lia.
  - rewrite sub_skip by lia. rewrite H1. cbn [Nat.sub]. field_skip. rewrite u8_id by lia.
    cbn. lia.
Qed.

Lemma desc_length : forall d, desc_wf d -> length (desc_htox d) = 256%nat.
Proof.
  intros d (C & L). unfold desc_htox. rewrite !app_length, caddr64b_length, laddr48b_length, repeat_length; auto.
  apply L.
Qed.
Lemma desc_rt : forall d, desc_wf d -> desc_xtoh (desc_htox d) = d.
Proof.
  intros [c a] (C & L). cbn in C, L. unfold desc_xtoh, desc_htox. cbn [d_caddr d_laddr].
  pose proof (caddr64b_length c C) as LC.
  pose proof (laddr48b_length a (proj1 (proj1 L))) as LA.
  f_equal.
  - rewrite sub_hd by auto. apply caddr64b_rt; auto.
  - rewrite sub_skip by lia. rewrite LC. cbn [Nat.sub]. rewrite sub_hd by auto. apply laddr48b_roundtrip; auto.
Qed.

Lemma descs_length : forall ds, Forall desc_wf ds ->
  length (concat (map desc_htox ds)) = (256 * length ds)%nat.
Proof.
  induction ds as [|d ds IH]; intros F; cbn [map concat length]; auto.
  inversion F; subst. rewrite app_length, desc_length, IH by auto. lia.
Qed.
Lemma descs_rt : forall ds tl, Forall desc_wf ds ->
  map (fun i => desc_xtoh (sub (256 * i) 256 (concat (map desc_htox ds) ++ tl))) (seq 0 (length ds)) = ds.
Proof.
  induction ds as [|d ds IH]; intros tl F; cbn [map concat length seq]; auto.
  inversion F; subst. rewrite <- app_assoc. f_equal.
  - rewrite Nat.mul_0_r. rewrite sub_hd by (apply desc_length; auto). apply desc_rt; auto.
  - rewrite <- seq_shift, map_map. rewrite <- (IH tl) at 2 by auto. apply map_ext. intros i.
    rewrite sub_skip by (rewrite desc_length by auto; lia). rewrite desc_length by auto.
    f_equal. f_equal. lia.
Qed.

Lemma index_size_facts : forall n, 0 <= n ->
  let sz := index_size n in
  HDR_SIZE + ndescs_max sz * DSC_SIZE = sz /\ n <= ndescs_max sz.
Proof.
  intros n N sz. unfold sz, index_size, ndescs_max, HDR_SIZE, DSC_SIZE, LBK_SIZE.
  set (q := (1024 + n * 256 + 65536 - 1) / 65536).
  assert (Q : 65536 * q <= 1024 + n * 256 + 65536 - 1 < 65536 * q + 65536).
  { pose proof (Z.div_mod (1024 + n * 256 + 65536 - 1) 65536 ltac:(lia)).
    pose proof (Z.mod_pos_bound (1024 + n * 256 + 65536 - 1) 65536 ltac:(lia)). unfold q. lia. }
  replace ((q * 65536 - 1024) / 256) with (q * 256 - 4).
  - lia.
  - symmetry. replace (q * 65536 - 1024) with ((q * 256 - 4) * 256) by lia. apply Z.div_mul. lia.
Qed.

Lemma hdr_head_length : forall n c, length (hdr_head n c) = 1016%nat.
Proof. intros. unfold hdr_head. rewrite !app_length, !le_enc_length, repeat_length. reflexivity. Qed.

Lemma index_length : forall E ds, Forall desc_wf ds ->
  let sz := index_size (Z.of_nat (length ds)) in
  Z.of_nat (length (index_bytes E ds sz)) = sz.
Proof.
  intros E ds F sz. destruct (index_size_facts (Z.of_nat (length ds)) ltac:(lia)) as (A & B). fold sz in A, B.
  unfold index_bytes, index_area. rewrite !app_length, hdr_head_length, le_enc_length, descs_length, repeat_length by auto.
  unfold HDR_SIZE, DSC_SIZE in *. lia.
Qed.

Lemma index_rt : forall E ds, digests E -> Forall desc_wf ds ->
  let sz := index_size (Z.of_nat (length ds)) in
  index_size_ok sz = true ->
  index_decode E (caddr_of E (index_bytes E ds sz) CT_PACKIDX) (index_bytes E ds sz) = Ok ds.
Proof.
  intros E ds (_ & DG) F sz OK.
  pose proof (index_length E ds F) as LEN. fold sz in LEN. cbv zeta in LEN.
  destruct (index_size_facts (Z.of_nat (length ds)) ltac:(lia)) as (A & B). fold sz in A, B.
  unfold index_decode. rewrite LEN, OK. cbn [negb]. rewrite A.
  rewrite (firstn_all2 (n := Z.to_nat sz)) by lia.
  rewrite caddr_eqb_refl. cbn [negb].
  unfold index_bytes. set (area := index_area ds sz). set (H := hdr_head (Z.of_nat (length ds)) (e_xxh E area)).
  assert (LH : length H = 1016%nat) by apply hdr_head_length.
  assert (SZ : 0 <= Z.of_nat (length ds) < 2 ^ 64).
  { unfold index_size_ok, PAR_INDEX_MAX in OK. unfold HDR_SIZE, DSC_SIZE in A. lia. }
  assert (SK : skipn 1024 (H ++ le_enc 8 (e_xxh E H) ++ area) = area).
  { rewrite app_assoc. rewrite skipn_app, skipn_all2 by (rewrite app_length, le_enc_length, LH; lia).
    rewrite app_length, le_enc_length, LH. reflexivity. }
  rewrite SK.
  assert (S0 : le_dec (sub 0 8 (H ++ le_enc 8 (e_xxh E H) ++ area)) = PAR_INDEX_MAGIC).
  { rewrite sub_app_l by lia. unfold H, hdr_head. rewrite sub_hd by apply le_enc_length.
    apply le_dec_enc. unfold PAR_INDEX_MAGIC. simpl. lia. }
  assert (S1 : le_dec (sub 8 4 (H ++ le_enc 8 (e_xxh E H) ++ area)) = PACK_VERSION).
  { rewrite sub_app_l by lia. unfold H, hdr_head. field_skip. rewrite sub_hd by apply le_enc_length.
    apply le_dec_enc. unfold PACK_VERSION. simpl. lia. }
  assert (S2 : le_dec (sub 16 8 (H ++ le_enc 8 (e_xxh E H) ++ area)) = Z.of_nat (length ds)).
  { rewrite sub_app_l by lia. unfold H, hdr_head. do 3 field_skip. rewrite sub_hd by apply le_enc_length.
    apply le_dec_enc. change (256 ^ Z.of_nat 8) with (2 ^ 64). lia. }
  assert (S3 : le_dec (sub 24 8 (H ++ le_enc 8 (e_xxh E H) ++ area)) = e_xxh E area).
  { rewrite sub_app_l by lia. unfold H, hdr_head. do 4 field_skip. rewrite sub_hd by apply le_enc_length.
    apply le_dec_enc. change (256 ^ Z.of_nat 8) with (2 ^ 64). apply DG. }
  assert (S4 : le_dec (sub 1016 8 (H ++ le_enc 8 (e_xxh E H) ++ area)) = e_xxh E H).
  { rewrite sub_skip by lia. rewrite LH. cbn [Nat.sub]. rewrite sub_hd by apply le_enc_length.
    apply le_dec_enc. change (256 ^ Z.of_nat 8) with (2 ^ 64). apply DG. }
  assert (S5 : firstn 1016 (H ++ le_enc 8 (e_xxh E H) ++ area) = H).
  { rewrite firstn_app, LH, Nat.sub_diag, firstn_O, app_nil_r. apply firstn_all2. lia. }
  rewrite S0, S1, S2, S3, S4, S5, !Z.eqb_refl. cbn [negb].
  replace (ndescs_max sz <? Z.of_nat (length ds)) with false by (symmetry; apply Z.ltb_ge; lia).
  rewrite Nat2Z.id. f_equal. apply descs_rt; auto.
Qed.

(* ---- what an archive run leaves ---- *)
Definition archived (E : env) (R : repo) (v : vol) (r : repo) (c : caddr) : Prop :=
  exists ds,
    let sz := index_size (Z.of_nat (length ds)) in
    c = caddr_of E (index_bytes E ds sz) CT_PACKIDX /\ index_size_ok sz = true /\
    r_packs r c = Some (index_bytes E ds sz) /\
    Forall desc_wf ds /\ Forall (dinv E R v true r) ds /\
    (forall a, live E R v a -> cov a ds) /\
    exists d, filter (fun d => is_bootrec (d_laddr d)) ds = [d] /\ d_caddr d = v_boot v.

Lemma dinv_wf : forall E R v r d, digests E -> sound E R v -> dinv E R v true r d -> desc_wf d.
Proof.
  intros E R v r d (DG & _) SO [(_ & DL & DC & b & B & _)|(PR & b & RB & DC & _)]; split.
  - rewrite DC, (boot_caddr _ _ _ _ B). split; [apply DG|].
    cbn [ca_size ca_type caddr_of]. split; [apply Z.mod_pos_bound; lia|unfold CT_BOOTREC; lia].
  - rewrite DL. destruct (so_live _ _ _ SO _ (lv_super _ _ _)) as ((LV & _) & _).
    change (boot_laddr (ls_lvid (la_lsid (v_super v)))) with
      (mkLaddr (mkLsid (ls_lvid (la_lsid (v_super v))) 1024 0 1 8 1) 0 1024).
    unfold laddr_wf, lsid_wf. cbn. split; [|lia]. split; [exact LV|]. lia.
  - rewrite DC. split; [apply DG|]. cbn [ca_size ca_type caddr_of].
    split; [apply Z.mod_pos_bound; lia|unfold CT_ENCSEG; lia].
  - destruct PR as (A1 & A2 & A3 & A4 & A5 & A6 & A7 & A8 & A9). unfold LT_BOOTREC in A6.
    unfold laddr_wf, lsid_wf. split; [|lia]. split; auto. lia.
Qed.

Lemma dinv_packs : forall E R v r r' d, dinv E R v true r d ->
  (forall e, r_packs r (d_caddr d) = Some e -> r_packs r' (d_caddr d) = Some e) ->
  dinv E R v true r' d.
Proof.
  intros E R v r r' d [(X0 & X1 & X2 & b & X3 & X4)|(X1 & b & X2 & X3 & X4)] H.
  - left. split; auto. split; auto. split; auto. exists b. split; auto. rewrite <- X2. apply H. congruence.
  - right. split; auto. exists b. split; auto.
Qed.

Lemma dinv_type : forall E R v r d, dinv E R v true r d -> ca_type (d_caddr d) <> CT_PACKIDX.
Proof.
  intros E R v r d [(_ & _ & X2 & b & X3 & _)|(_ & b & _ & X3 & _)].
  - rewrite X2, (boot_caddr _ _ _ _ X3). cbn. discriminate.
  - rewrite X3. cbn. discriminate.
Qed.

Lemma fs_pack_spec : forall E R v f d0,
  sound E R v -> packs_ok E R -> clash_free E R v -> digests E ->
  match fs_pack E v (mkSt R f d0) with
  | (Ok c, s) => archived E R v (s_repo s) c /\
                 r_segs (s_repo s) = r_segs R /\ r_blobs (s_repo s) = r_blobs R /\ r_refs (s_repo s) = r_refs R
  | (Err e, s) => faulty f \/ (e = EInval /\ index_size_ok (index_size (Z.of_nat (length (s_descs s)))) = false)
  | (Abort, _) => False
  end.
Proof.
  intros E R v f d0 SO PO CF DG. unfold fs_pack. unfold bind at 1. cbn [s_repo s_fates].
  assert (I0 : inv E R v false R []).
  { split; [|split; [|split; [|split]]]; auto. intros c e H. left; auto. }
  pose proof (h_export_fs E R v R SO PO CF I0 (mkSt R f []) (conj eq_refl eq_refl)) as X.
  unfold bind at 1. destruct (export_fs E v (mkSt R f [])) as [[u|e|] s].
  2:{ left. apply X. }
  2:{ destruct X. }
  destruct X as ((I & CV & bd & BD & BC) & IN). cbn [s_fates] in IN.
  destruct I as (I1 & I2 & I3 & PI & DI).
  unfold export_index. set (ds := s_descs s) in *. set (sz := index_size (Z.of_nat (length ds))).
  destruct (index_size_ok sz) eqn:OK; cbn [negb].
  2:{ right. split; auto. }
  assert (WF : Forall desc_wf ds) by (eapply Forall_impl; [|exact DI]; intros; eapply dinv_wf; eauto).
  set (b := index_bytes E ds sz). set (c := caddr_of E b CT_PACKIDX).
  assert (LB : Z.of_nat (length b) = sz) by (apply index_length; auto).
  assert (L32 : 0 <= sz < 2 ^ 32) by (unfold index_size_ok, PAR_INDEX_MIN, PAR_INDEX_MAX, LBK_SIZE in OK; lia).
  assert (H : hoare (here (s_repo s) ds) (may_fail ENomem ;;; save_pack c b ;;; ret c)
                (fun x s' => x = c /\ here (upd_pack (s_repo s) c b) ds s')).
  { eapply h_bind; [apply h_may_fail; [discriminate|apply nofate_here]|]. intros u0. cbn beta. clear u0.
    eapply h_bind; [apply h_save_pack|intros u0; cbn beta; apply h_ret; auto].
    destruct (r_packs (s_repo s) c) as [e|] eqn:PK; cbn [contents]; [|cbn; lia].
    destruct (PI _ _ PK) as [HR|(K & C)].
    - destruct (PO _ _ HR) as (HL & _). change (ca_size c) with (u32 (Z.of_nat (length b))) in HL.
      rewrite u32_id in HL by lia. lia.
    - assert (Y : ca_size c = Z.of_nat (length e)) by (rewrite C; eapply ca_size_of; eauto).
      change (ca_size c) with (u32 (Z.of_nat (length b))) in Y. rewrite u32_id in Y by lia. lia. }
  specialize (H s (conj eq_refl eq_refl)). cbv zeta. fold c.
  destruct ((may_fail ENomem ;;; save_pack c b ;;; ret c) s) as [[x|e|] s'].
  - destruct H as ((-> & HR & HD) & _). rewrite HR. split; [|auto].
    exists ds. fold sz. fold b. split; auto. split; auto. split; [apply upd_pack_same|].
    split; auto. split; [|split; auto; exists bd; auto].
    eapply Forall_impl; [|exact DI]. intros d Hd. eapply dinv_packs; [exact Hd|].
    intros e HE. rewrite upd_pack_other; auto.
    intros EQ. apply (dinv_type _ _ _ _ _ Hd). rewrite EQ. reflexivity.
  - left. eapply faulty_incl; [exact IN|]. apply H.
  - destruct H.
Qed.

(* ---- restoring ---- *)
Definition grown (r r' : repo) : Prop :=
  r_packs r' = r_packs r /\ r_blobs r' = r_blobs r /\ r_refs r' = r_refs r /\ segs_sized r' /\
  forall l p x, seg_byte r l p = Some x -> seg_byte r' l p = Some x.
Lemma grown_refl : forall r, segs_sized r -> grown r r.
Proof. intros r H. split; [|split; [|split; [|split]]]; auto. Qed.
Lemma grown_trans : forall a b c, grown a b -> grown b c -> grown a c.
Proof.
  intros a b c (A1 & A2 & A3 & A4 & A5) (B1 & B2 & B3 & B4 & B5).
  split; [|split; [|split; [|split]]]; try congruence; auto.
Qed.

Lemma seg_same : forall r l v, r_segs (upd_seg r l v) l = v.
Proof. intros. cbn. rewrite lsid_eqb_refl. auto. Qed.
Lemma seg_other : forall r l v x, x <> l -> r_segs (upd_seg r l v) x = r_segs r x.
Proof. intros. cbn. rewrite lsid_eqb_neq; auto. Qed.

Lemma round_lbk_facts : forall n, 0 <= n ->
  n <= round_lbk n /\ round_lbk n < n + LBK_SIZE /\ round_lbk n mod LBK_SIZE = 0.
Proof.
  intros n N. unfold round_lbk, off_align, LBK_SIZE.
  pose proof (Z.div_mod (n + 65536 - 1) 65536 ltac:(lia)).
  pose proof (Z.mod_pos_bound (n + 65536 - 1) 65536 ltac:(lia)).
  rewrite ?Z.quot_div_nonneg by lia.
  split; [lia|split; [lia|]]. apply Z.mod_mul. lia.
Qed.

Lemma grown_seg : forall r l g g', segs_sized r -> seg_sized l g' ->
  r_segs r l = Some g -> sg_size g <= sg_size g' ->
  (forall p, 0 <= p < sg_size g -> sg_at g' p = sg_at g p) ->
  grown r (upd_seg r l (Some g')).
Proof.
  intros r l g g' SZ SG G LE AT. split; [|split; [|split; [|split]]]; auto.
  - intros x y. destruct (lsid_dec x l) as [->|N].
    + rewrite seg_same. intros H. inversion H; subst; auto.
    + rewrite seg_other by auto. apply SZ.
  - intros x p y. unfold seg_byte. destruct (lsid_dec x l) as [->|N].
    + rewrite seg_same, G.
      destruct ((0 <=? p) && (p <? sg_size g)) eqn:C; [|discriminate].
      intros H. replace ((0 <=? p) && (p <? sg_size g')) with true by lia.
      rewrite AT by lia. auto.
    + rewrite seg_other by auto. auto.
Qed.

Definition at_seg (r : repo) (d : list desc) (l : lsid) (n : Z) (s : st) : Prop :=
  s_descs s = d /\ grown r (s_repo s) /\ exists g, r_segs (s_repo s) l = Some g /\ n <= sg_size g.

Lemma here_self : forall s, here (s_repo s) (s_descs s) s.
Proof. intros; split; auto. Qed.

Lemma h_repo_require : forall r d l, segs_sized r -> 0 <= ls_lsize l ->
  hoare (here r d) (repo_require_lseg l) (fun _ => at_seg r d l 0).
Proof.
  intros r d l SZ LS. unfold repo_require_lseg.
  destruct (r_segs r l) as [g|] eqn:G.
  - pose proof (SZ _ _ G) as SG.
    eapply h_or_noent; [eapply (h_stat l (here r d)); [apply nofate_here| |exact SG]|].
    { intros s (-> & _). exact G. }
    intros u0. cbn beta. clear u0.
    eapply h_bind; [eapply (h_open l (here r d)); [apply nofate_here| |exact SG]|].
    { intros s (-> & _). exact G. }
    intros x. cbn beta. apply h_ret. intros s (_ & H1 & H2). split; auto. rewrite H1.
    split; [apply grown_refl; auto|]. exists g. split; auto. apply SG.
  - (* absent: made at full size *)
    set (g0 := mkSeg (round_lbk (ls_lsize l)) (fun _ => 0)).
    set (r1 := upd_seg r l (Some g0)).
    destruct (round_lbk_facts (ls_lsize l) LS) as (RL1 & RL2 & RL3).
    assert (SG : seg_sized l g0) by (split; cbn; [exact RL3|lia]).
    assert (GR : grown r r1).
    { split; [|split; [|split; [|split]]]; auto.
      - intros x y. unfold r1. destruct (lsid_dec x l) as [->|N].
        + rewrite seg_same. intros H. inversion H; subst; auto.
        + rewrite seg_other by auto. apply SZ.
      - intros x p y. unfold seg_byte, r1. destruct (lsid_dec x l) as [->|N].
        + rewrite G. discriminate.
        + rewrite seg_other by auto. auto. }
    assert (K : hoare (here r d) (spawn_lseg l ;;; open_lseg l ;;; ret tt) (fun _ => at_seg r d l 0)).
    { eapply h_bind with (Q := fun _ => here r1 d).
      - unfold spawn_lseg.
        eapply h_bind; [apply h_may_fail; [discriminate|apply nofate_here]|]. intros u0. cbn beta. clear u0.
        eapply h_bind; [apply h_get|]. intros r'. cbn beta.
        apply h_pre. intros s ((Hr & Hd) & E0). rewrite E0, Hr, G.
        apply h_set. intros s0 ->. split; auto.
      - intros u0. cbn beta. clear u0.
        eapply h_bind; [eapply (h_open l (here r1 d)); [apply nofate_here| |exact SG]|].
        { intros s (-> & _). apply seg_same. }
        intros x. cbn beta. apply h_ret. intros s (_ & H1 & H2). split; auto. rewrite H1.
        split; auto. exists g0. split; [apply seg_same|cbn; lia]. }
    intros s (Hr & Hd). unfold or_noent, stat_lseg, may_fail, next_fate, bind, get_repo, fail.
    destruct s as [r0 f0 d0]. cbn in Hr, Hd. subst r0 d0. cbn [s_fates s_repo s_descs].
    destruct f0 as [|[|n] f0]; cbn [s_fates s_repo s_descs].
    + rewrite G. exact (K (mkSt r [] d) (conj eq_refl eq_refl)).
    + rewrite G. pose proof (K (mkSt r f0 d) (conj eq_refl eq_refl)) as X.
      destruct ((spawn_lseg l ;;; open_lseg l ;;; ret tt) (mkSt r f0 d)) as [[y|e|] s'] eqn:Y.
      * unfold bind in Y. rewrite Y. destruct X as (X1 & X2). split; auto.
        cbn [s_fates] in *. apply incl_tl; auto.
      * unfold bind in Y. rewrite Y. destruct X as (X1 & n & X2). split; auto. exists n. right; auto.
      * destruct X.
    + split; [discriminate|]. exists n. left; auto.
Qed.

Lemma h_size_ge : forall r r0 d a g, grown r0 r ->
  r_segs r (la_lsid a) = Some g -> proper a ->
  hoare (here r d) (require_size_ge (la_lsid a) (la_pos a) (la_len a))
    (fun _ => at_seg r0 d (la_lsid a) (la_end a)).
Proof.
  intros r r0 d a g GR G PR. pose proof GR as (_ & _ & _ & SZ & _). pose proof (SZ _ _ G) as SG.
  destruct PR as (_ & LS & _ & _ & _ & _ & P0 & L0 & LE).
  unfold require_size_ge.
  eapply h_bind; [eapply (h_open _ (here r d)); [apply nofate_here| |exact SG]|].
  { intros s (-> & _). exact G. }
  intros x. cbn beta. apply h_and. intros ->.
  set (want := Z.max (la_pos a + la_len a) (off_next (la_pos a) LBK_SIZE)).
  assert (NX : exists q, off_next (la_pos a) LBK_SIZE = q * LBK_SIZE /\ q * LBK_SIZE <= la_pos a + LBK_SIZE).
  { unfold off_next, off_align. rewrite Z.quot_div_nonneg by (unfold LBK_SIZE; lia).
    eexists. split; [reflexivity|].
    pose proof (Z.mul_div_le (la_pos a + LBK_SIZE) LBK_SIZE ltac:(unfold LBK_SIZE; lia)). lia. }
  destruct NX as (q & NX & NQ).
  assert (W0 : 0 <= want) by (unfold want; lia).
  assert (WB : want <= ls_lsize (la_lsid a) + LBK_SIZE) by (unfold want; rewrite NX; unfold LBK_SIZE in *; lia).
  assert (RB : round_lbk want <= ls_lsize (la_lsid a) + LBK_SIZE).
  { destruct (round_lbk_facts want W0) as (R1 & R2 & R3).
    destruct (Z.le_gt_cases want (la_pos a + la_len a)) as [H|H]; [lia|].
    assert (WQ : want = q * LBK_SIZE) by (unfold want in *; lia).
    assert (round_lbk want = want); [|lia].
    rewrite WQ. unfold round_lbk, off_align. rewrite WQ in W0.
    rewrite Z.quot_div_nonneg by (unfold LBK_SIZE in *; lia).
    replace (q * LBK_SIZE + LBK_SIZE - 1) with ((LBK_SIZE - 1) + q * LBK_SIZE) by lia.
    rewrite Z.div_add by (unfold LBK_SIZE; lia).
    rewrite Z.div_small by (unfold LBK_SIZE; lia). lia. }
  destruct (sg_size g >=? want) eqn:C1.
  - apply h_ret. intros s (H1 & H2). split; auto. rewrite H1. split; auto. exists g. split; auto.
    unfold la_end. unfold want in C1. lia.
  - replace (want <? 0) with false by lia.
    replace (want >? ls_lsize (la_lsid a) + LBK_SIZE) with false by lia.
    eapply h_bind; [apply h_may_fail; [discriminate|apply nofate_here]|]. intros u0. cbn beta. clear u0.
    eapply h_bind; [apply h_get|]. intros r'. cbn beta.
    apply h_pre. intros s ((Hr & Hd) & E0). rewrite E0, Hr.
    destruct (round_lbk_facts want W0) as (R1 & R2 & R3).
    apply h_set. intros s0 ->. unfold at_seg; cbn [s_repo s_descs]. split; auto. split.
    + eapply grown_trans; [exact GR|]. eapply grown_seg; eauto.
      * split; cbn; [exact R3|lia].
      * cbn. lia.
      * intros p HP. cbn. replace (p <? sg_size g) with true by lia. auto.
    + eexists. split; [apply seg_same|]. cbn [sgrow sg_size]. assert (la_pos a + la_len a <= want) by (unfold want; lia). unfold la_end. lia.
Qed.

Definition wrote (r : repo) (a : laddr) (b : bytes) (r' : repo) : Prop :=
  r_packs r' = r_packs r /\ r_blobs r' = r_blobs r /\ r_refs r' = r_refs r /\ segs_sized r' /\
  (forall l p, inside a l p -> seg_byte r' l p = Some (nth (Z.to_nat (p - la_pos a)) b 0)) /\
  (forall l p x, ~ inside a l p -> seg_byte r l p = Some x -> seg_byte r' l p = Some x).

Lemma h_save_seg : forall r d a b, segs_sized r -> proper a -> length b = Z.to_nat (la_len a) ->
  hoare (here r d) (save_seg a b) (fun _ s => s_descs s = d /\ wrote r a b (s_repo s)).
Proof.
  intros r d a b SZ PR LB. pose proof PR as (_ & LS & _ & _ & _ & _ & P0 & L0 & LE).
  unfold save_seg, require_laddr.
  eapply h_bind; [apply h_repo_require; auto; lia|]. intros u0. cbn beta. clear u0.
  apply h_pre. intros s1 (D1 & G1 & g1 & A1 & _).
  eapply h_bind with (Q := fun _ => at_seg r d (la_lsid a) (la_end a)).
  { eapply h_conseq; [eapply (h_size_ge (s_repo s1) r d a g1); eauto| |auto]. intros s ->. split; auto. }
  intros u0. cbn beta. clear u0.
  apply h_pre. intros s2 (D2 & G2 & g2 & A2 & _).
  unfold write_at.
  eapply h_bind with (Q := fun _ => at_seg r d (la_lsid a) (la_end a)).
  { eapply h_conseq; [eapply (h_size_ge (s_repo s2) r d a g2); eauto| |auto]. intros s ->. split; auto. }
  intros u0. cbn beta. clear u0.
  apply h_pre. intros s3 (D3 & G3 & g & A3 & EN).
  pose proof G3 as (GP & GB & GF & S3 & GS). pose proof (S3 _ _ A3) as SG.
  eapply h_bind with (Q := fun x s => x = g /\ here (s_repo s3) d s).
  { eapply h_conseq; [eapply (h_open _ (here (s_repo s3) d)); [apply nofate_here| |exact SG]| |auto].
    - intros s (-> & _). exact A3.
    - intros s ->. split; auto. }
  intros x. cbn beta. apply h_and. intros ->.
  replace (la_pos a <? 0) with false by lia.
  replace (la_end a >? ls_lsize (la_lsid a) + LBK_SIZE) with false by (unfold la_end, LBK_SIZE; lia).
  intros s (Hr & Hd). unfold pwrite_lseg, next_fate. destruct s as [r0 f0 d0]. cbn in Hr, Hd.
  assert (W : wrote r a b (upd_seg r0 (la_lsid a) (Some (swrite g (la_pos a) b)))).
  { rewrite Hr. split; [|split; [|split; [|split; [|split]]]]; auto.
    - intros x y. destruct (lsid_dec x (la_lsid a)) as [->|N].
      + rewrite seg_same. intros H. inversion H; subst; auto.
      + rewrite seg_other by auto. apply S3.
    - intros l p (-> & IN). unfold seg_byte. rewrite seg_same. cbn. unfold la_end in EN.
      replace ((0 <=? p) && (p <? sg_size g)) with true by lia.
      replace ((la_pos a <=? p) && (p <? la_pos a + Z.of_nat (length b))) with true by lia. auto.
    - intros l p y NI HB. apply GS in HB. revert HB. unfold seg_byte.
      destruct (lsid_dec l (la_lsid a)) as [->|N].
      + rewrite seg_same, A3. cbn.
        destruct ((0 <=? p) && (p <? sg_size g)); auto.
        destruct ((la_pos a <=? p) && (p <? la_pos a + Z.of_nat (length b))) eqn:C; auto.
        exfalso. apply NI. split; auto. lia.
      + rewrite seg_other by auto. auto. }
  cbn [s_fates s_repo s_descs]. subst d0.
  destruct f0 as [|[|n] f0]; cbn [s_fates s_repo s_descs].
  - split; [auto|apply incl_refl].
  - split; [auto|apply incl_tl, incl_refl].
  - split; [discriminate|]. exists n. left; auto.
Qed.

Lemma h_load_pack : forall r d c n e, r_packs r c = Some e -> n = Z.of_nat (length e) ->
  hoare (here r d) (load_pack c n) (fun b s => b = e /\ here r d s).
Proof.
  intros r d c n e PK N. unfold load_pack.
  eapply h_bind; [apply h_may_fail; [discriminate|apply nofate_here]|]. intros u0. cbn beta. clear u0.
  eapply h_bind; [apply h_get|]. intros r'. cbn beta.
  apply h_pre. intros s ((Hr & Hd) & E0). rewrite E0, Hr, PK.
  replace (Z.of_nat (length e) <? n) with false by lia.
  rewrite firstn_all2 by lia.
  apply h_ret. intros s0 ->. split; auto. split; auto.
Qed.

Section Import.
Variables (E : env) (R : repo) (v : vol) (R2 : repo).
Hypothesis SO : sound E R v.

Definition dok (r : repo) (d : desc) : Prop :=
  if is_bootrec (d_laddr d)
  then exists b, boot_ok E R (v_boot v) b /\ boot_ok E r (v_boot v) b
  else forall l p, inside (d_laddr d) l p ->
       exists z, seg_byte R l p = Some z /\ seg_byte r l p = Some z.

Definition iinv (r : repo) (done : list desc) : Prop :=
  r_packs r = r_packs R2 /\ segs_sized r /\ forall x, In x done -> dok r x.

Lemma h_import_seg : forall r d done x, iinv r done -> dinv E R v true R2 x ->
  is_bootrec (d_laddr x) = false ->
  hoare (here r d) (import_seg x) (fun _ s => s_descs s = d /\ iinv (s_repo s) (x :: done)).
Proof.
  intros r d done x (PK & SZ & DN) DX NB. unfold import_seg.
  destruct DX as [(_ & DL & _)|(PR & b & RB & DC & PB)].
  { rewrite DL in NB. discriminate. }
  eapply h_bind; [apply h_may_fail; [discriminate|apply nofate_here]|]. intros u0. cbn beta. clear u0.
  pose proof PR as (_ & LS & _ & _ & _ & _ & P0 & L0 & LE). pose proof RB as (LB & RBB).
  eapply h_bind; [apply (h_load_pack r d (d_caddr x) (la_len (d_laddr x)) b); [rewrite PK; auto|lia]|].
  intros b'. cbn beta. apply h_and. intros ->.
  eapply h_conseq; [apply (h_save_seg r d (d_laddr x) b); auto|auto|].
  cbn beta. intros u0 s (D & W1 & W2 & W3 & W4 & W5 & W6). split; auto.
  assert (HX : forall l p, inside (d_laddr x) l p ->
      exists z, seg_byte R l p = Some z /\ seg_byte (s_repo s) l p = Some z).
  { intros l p IN. rewrite W5 by auto. destruct IN as (-> & IN).
    pose proof (RBB (Z.to_nat (p - la_pos (d_laddr x))) ltac:(lia)) as Y.
    rewrite Z2Nat.id in Y by lia.
    replace (la_pos (d_laddr x) + (p - la_pos (d_laddr x))) with p in Y by lia. eauto. }
  split; [congruence|]. split; auto.
  intros y [<-|IN]; unfold dok.
  - rewrite NB. exact HX.
  - specialize (DN y IN). unfold dok in DN. destruct (is_bootrec (d_laddr y)) eqn:BY.
    + destruct DN as (bb & B1 & B2). exists bb. split; auto.
      unfold boot_ok in *. rewrite W2, W3. auto.
    + intros l p IP. destruct (DN l p IP) as (z & Z1 & Z2).
      assert (IV : inside (d_laddr x) l p \/ ~ inside (d_laddr x) l p).
      { destruct (lsid_dec l (la_lsid (d_laddr x))); [|right; intros (X & _); contradiction].
        destruct (Z_le_dec (la_pos (d_laddr x)) p); [|right; intros (_ & X); lia].
        destruct (Z_lt_dec p (la_pos (d_laddr x) + la_len (d_laddr x))); [left; split; auto|right; intros (_ & X); lia]. }
      destruct IV as [IV|IV]; [auto|]. exists z. split; auto.
Qed.

Lemma h_import_boot : forall r d done x, iinv r done -> dinv E R v true R2 x ->
  is_bootrec (d_laddr x) = true ->
  hoare (here r d) (import_boot E x) (fun _ s => s_descs s = d /\ iinv (s_repo s) (x :: done)).
Proof.
  intros r d done x (PK & SZ & DN) DX NB. unfold import_boot.
  destruct DX as [(_ & DL & DC & b & B & PB)|(PR & _)].
  2:{ rewrite is_bootrec_proper in NB by auto. discriminate. }
  pose proof B as (BR & (e & BE & BF) & BL & BCC & br & BD & BN).
  pose proof (boot_caddr _ _ _ _ B) as BC.
  eapply h_bind; [apply (h_load_pack r d (d_caddr x) BOOTREC_SIZE b); [rewrite DC, PK; auto|unfold BOOTREC_SIZE; lia]|].
  intros b'. cbn beta. apply h_and. intros ->. rewrite BD.
  set (h := ca_hash (v_boot v)). set (old := contents (r_blobs r h)).
  set (r1 := upd_blob r h (overwrite b old)). set (r2 := upd_ref r1 (v_boot v)).
  eapply h_bind with (Q := fun c s => c = v_boot v /\ here r2 d s).
  { unfold save_bootrec. rewrite BN, <- BC. fold h.
    eapply h_bind with (Q := fun _ => here r1 d).
    - unfold save_blob.
      eapply h_bind; [apply h_may_fail; [discriminate|apply nofate_here]|]. intros u0. cbn beta. clear u0.
      intros s (Hr & Hd). unfold next_fate. destruct s as [r0 f0 d0]. cbn in Hr, Hd. subst r0 d0.
      cbn [s_fates s_repo s_descs]. fold old.
      destruct f0 as [|[|n] f0]; cbn [s_fates s_repo s_descs].
      + split; [split; auto|apply incl_refl].
      + split; [split; auto|apply incl_tl, incl_refl].
      + split; [discriminate|]. exists n. left; auto.
    - intros u0. cbn beta. clear u0. unfold create_ref.
      eapply h_bind with (Q := fun _ => here r2 d).
      + eapply h_bind; [apply h_may_fail; [discriminate|apply nofate_here]|]. intros u0. cbn beta. clear u0.
        eapply h_bind; [apply h_get|]. intros r'. cbn beta.
        apply h_pre. intros s ((Hr & Hd) & E0). rewrite E0, Hr.
        apply h_set. intros s0 ->. split; auto.
      + intros u0. cbn beta. clear u0. apply h_ret. auto. }
  intros c. cbn beta. apply h_and. intros ->. rewrite DC, caddr_eqb_refl.
  apply h_ret. intros s (H1 & H2). split; auto. rewrite H1.
  assert (BO : boot_ok E r2 (v_boot v) b).
  { split; [cbn; rewrite caddr_eqb_refl; auto|]. split; [|split; [auto|split; [auto|exists br; auto]]].
    exists (overwrite b old). fold h. split; [cbn; rewrite (proj2 (bytes_eqb_eq h h) eq_refl); auto|].
    unfold overwrite. rewrite firstn_app, BL. cbn [Nat.sub]. rewrite firstn_O, app_nil_r.
    apply firstn_all2. lia. }
  split; [auto|]. split; [auto|].
  intros y [<-|IN]; unfold dok.
  - rewrite NB. eauto.
  - specialize (DN y IN). unfold dok in DN. destruct (is_bootrec (d_laddr y)); [eauto|]. exact DN.
Qed.

Lemma h_import_all : forall ds r d done, iinv r done -> Forall (dinv E R v true R2) ds ->
  hoare (here r d) (import_all E ds) (fun _ s => exists done', iinv (s_repo s) done' /\ incl (done ++ ds) done').
Proof.
  induction ds as [|x ds IH]; intros r d done I F; cbn [import_all].
  - apply h_ret. intros s (H1 & _). exists done. rewrite H1, app_nil_r. split; auto. apply incl_refl.
  - inversion F; subst.
    eapply h_bind with (Q := fun _ s => s_descs s = d /\ iinv (s_repo s) (x :: done)).
    + destruct (is_bootrec (d_laddr x)) eqn:BX; [apply h_import_boot|apply h_import_seg]; auto.
    + intros u0. cbn beta. clear u0. apply h_pre. intros s (D & I2).
      eapply h_conseq; [apply (IH (s_repo s) d (x :: done)); auto| |].
      * intros s0 ->. split; auto.
      * cbn beta. intros u0 s0 (dn & J & L). exists dn. split; auto.
        intros y Hy. apply L. apply in_app_or in Hy. cbn [In] in Hy. apply in_or_app. cbn [In]. tauto.
Qed.
End Import.

Lemma fs_unpack_spec : forall E R v R2 c f2 d2,
  sound E R v -> digests E -> segs_sized R2 ->
  archived E R v R2 c ->
  match fs_unpack E c (mkSt R2 f2 d2) with
  | (Ok c', s) => c' = v_boot v /\ segs_sized (s_repo s) /\ r_packs (s_repo s) = r_packs R2 /\
      (forall a l p, live E R v a -> inside a l p -> seg_byte (s_repo s) l p = seg_byte R l p) /\
      (exists b, boot_ok E R (v_boot v) b /\ boot_ok E (s_repo s) (v_boot v) b)
  | (Err e, _) => faulty f2
  | (Abort, _) => False
  end.
Proof.
  intros E R v R2 c f2 d2 SO DG SZ (ds & AR). cbv zeta in AR.
  set (sz := index_size (Z.of_nat (length ds))) in *.
  destruct AR as (AC & AOK & APK & AWF & ADI & ACV & bd & ABD & ABC).
  set (b := index_bytes E ds sz) in *.
  assert (LB : Z.of_nat (length b) = sz) by (apply index_length; auto).
  assert (H : hoare (here R2 d2) (fs_unpack E c) (fun c' s => c' = v_boot v /\
     exists done, iinv E R v R2 (s_repo s) done /\ incl ds done)).
  { unfold fs_unpack.
    eapply h_bind with (Q := fun x s => x = ds /\ here R2 d2 s).
    - unfold import_index. replace (ca_type c =? CT_PACKIDX) with true by (rewrite AC; reflexivity). cbn [negb].
      eapply h_bind; [apply h_may_fail; [discriminate|apply nofate_here]|]. intros u0. cbn beta. clear u0.
      eapply h_bind; [apply h_get|]. intros r'. cbn beta.
      apply h_pre. intros s ((Hr & Hd) & E0). rewrite E0, Hr, APK, LB, AOK. cbn [negb].
      eapply h_conseq with (P' := here R2 d2) (Q' := fun x s => x = ds /\ here R2 d2 s); [|intros s0 ->; split; auto|auto].
      eapply h_bind; [apply h_may_fail; [discriminate|apply nofate_here]|]. intros u0. cbn beta. clear u0.
      eapply h_bind; [apply (h_load_pack R2 d2 c sz b); auto|]. intros b'. cbn beta. apply h_and. intros ->.
      eapply h_bind; [apply h_may_fail; [discriminate|apply nofate_here]|]. intros u0. cbn beta. clear u0.
      rewrite AC. unfold b, sz. rewrite index_rt; auto. apply h_ret. auto.
    - intros x. cbn beta. apply h_and. intros ->.
      eapply h_bind; [apply (h_import_all E R v R2 ds R2 d2 []); auto|].
      { split; auto. split; auto. intros y []. }
      intros u0. cbn beta. clear u0. unfold import_post. rewrite ABD. apply h_ret.
      intros s (dn & J & L). split; auto. exists dn. split; auto. }
  specialize (H (mkSt R2 f2 d2) (conj eq_refl eq_refl)).
  destruct (fs_unpack E c (mkSt R2 f2 d2)) as [[c'|e|] s].
  - destruct H as ((-> & dn & (J1 & J2 & J3) & L) & _). split; auto. split; auto. split; auto. split.
    + intros a l p LV IN. destruct (ACV a LV) as (x & X1 & X2 & X3 & X4 & X5).
      pose proof (J3 x (L x X1)) as K. unfold dok in K. rewrite is_bootrec_proper in K by auto.
      destruct (K l p) as (z & Z1 & Z2); [|congruence].
      destruct IN as (-> & IN). unfold la_end in X5. split; [auto|lia].
    + assert (IB : In bd ds /\ is_bootrec (d_laddr bd) = true).
      { apply (filter_In (fun d => is_bootrec (d_laddr d))). rewrite ABD. left; auto. }
      destruct IB as (IB1 & IB2). pose proof (J3 bd (L bd IB1)) as K. unfold dok in K. rewrite IB2 in K. exact K.
  - apply H.
  - destruct H.
Qed.

(* a repository that agrees on the live addresses holds the same file-system *)
Lemma reads_agree : forall R R' a b,
  (forall l p, inside a l p -> seg_byte R' l p = seg_byte R l p) -> reads R a b -> reads R' a b.
Proof.
  intros R R' a b H (L & RB). split; auto. intros i Hi. rewrite H; auto.
  split; auto. lia.
Qed.

Lemma sound_agree : forall E R R' v, sound E R v ->
  (forall a l p, live E R v a -> inside a l p -> seg_byte R' l p = seg_byte R l p) ->
  segs_sized R' -> (exists b, boot_ok E R' (v_boot v) b) ->
  sound E R' v /\ forall a, live E R' v a <-> live E R v a.
Proof.
  intros E R R' v SO AG SZ BO.
  assert (FW : forall a b, live E R v a -> (reads R' a b <-> reads R a b)).
  { intros a b LV. split; apply reads_agree; intros l p IN; [symmetry|]; eauto. }
  assert (N1 : forall h lk, node_at E R' v h lk -> node_at E R v h lk).
  { intros h lk N. induction N as [lk IN|h lk b sl c N IH RB SL IN]; [apply na_root; auto|].
    eapply na_child; eauto. apply FW; auto. eapply lv_node; eauto. }
  assert (N2 : forall h lk, node_at E R v h lk -> node_at E R' v h lk).
  { intros h lk N. induction N as [lk IN|h lk b sl c N IH RB SL IN]; [apply na_root; auto|].
    eapply na_child; eauto. apply FW; auto. eapply lv_node; eauto. }
  assert (LV : forall a, live E R' v a <-> live E R v a).
  { intros a. split; intros L; destruct L as [|h lk N|lk b sl x N RB SL IN U].
    - apply lv_super.
    - eapply lv_node; eauto.
    - eapply lv_block; eauto. apply FW; auto. eapply lv_node; eauto.
    - apply lv_super.
    - eapply lv_node; eauto.
    - eapply lv_block; eauto. apply FW; auto. eapply lv_node; eauto. }
  split; auto. constructor; auto.
  - intros a L. apply LV in L. destruct (so_live _ _ _ SO a L) as (P & b & RB). split; auto.
    exists b. apply FW; auto.
  - intros h lk b N RB. apply (so_node _ _ _ SO h lk b); auto. apply FW; auto. eapply lv_node; eauto.
  - intros lk b N RB. apply (so_leaf _ _ _ SO lk b); auto. apply FW; auto. eapply lv_node; eauto.
Qed.
