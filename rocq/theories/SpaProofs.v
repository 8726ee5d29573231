(* Invariant of the free-range cache: every byte is held at most once, entries are in order. *)
From Verif Require Import Base AddrModel SpaModel.
From Coq Require Import Sorted.

Definition in_rng (off len b : Z) : bool := (off <=? b) && (b <? off + len).
(* how many ranges hold byte b *)
Fixpoint ecnt (l : list spe) (b : Z) : Z :=
  match l with [] => 0 | e :: r => Z.b2z (in_rng (spe_voff e) (spe_len e) b) + ecnt r b end.
Fixpoint lcnt (u : Z) (l : list Z) (b : Z) : Z :=
  match l with [] => 0 | o :: r => Z.b2z (in_rng o u b) + lcnt u r b end.
Definition cnt (m : spamap) (b : Z) : Z := lcnt (sp_ulen m) (sp_lifo m) b + ecnt (sp_ents m) b.

Lemma b2z_01 : forall x, 0 <= Z.b2z x <= 1. Proof. destruct x; simpl; lia. Qed.
Lemma ecnt_nn : forall l b, 0 <= ecnt l b.
Proof. induction l; intros b; cbn [ecnt]; [lia|]. pose proof (b2z_01 (in_rng (spe_voff a) (spe_len a) b)). specialize (IHl b). lia. Qed.
Lemma lcnt_nn : forall u l b, 0 <= lcnt u l b.
Proof. induction l; intros b; cbn [lcnt]; [lia|]. pose proof (b2z_01 (in_rng a u b)). specialize (IHl b). lia. Qed.
Lemma ecnt_app : forall l m b, ecnt (l ++ m) b = ecnt l b + ecnt m b.
Proof. induction l; intros; cbn [ecnt app]; [lia|]. rewrite IHl. lia. Qed.
Lemma ecnt_rev : forall l b, ecnt (rev l) b = ecnt l b.
Proof. induction l; intros; cbn [ecnt rev]; [lia|]. rewrite ecnt_app, IHl. cbn [ecnt]. lia. Qed.
Lemma ecnt_insert : forall l x b, ecnt (insert_spe l x) b = ecnt l b + Z.b2z (in_rng (spe_voff x) (spe_len x) b).
Proof.
  induction l; intros x b; cbn [insert_spe ecnt]; [lia|].
  destruct (_ <? _); cbn [ecnt]; [lia|]. rewrite IHl. lia.
Qed.
Lemma ecnt_in : forall l e b, In e l -> in_rng (spe_voff e) (spe_len e) b = true -> 1 <= ecnt l b.
Proof.
  induction l; intros e b Hi Hr; [contradiction|]. cbn [ecnt]. destruct Hi as [<-|Hi].
  - rewrite Hr. pose proof (ecnt_nn l b). simpl Z.b2z. lia.
  - pose proof (IHl e b Hi Hr). pose proof (b2z_01 (in_rng (spe_voff a) (spe_len a) b)). lia.
Qed.
Lemma ecnt_pos : forall l b, 1 <= ecnt l b -> exists e, In e l /\ in_rng (spe_voff e) (spe_len e) b = true.
Proof.
  induction l; intros b H; cbn [ecnt] in H; [lia|].
  destruct (in_rng (spe_voff a) (spe_len a) b) eqn:E.
  - exists a. split; [left; auto|auto].
  - simpl Z.b2z in H. destruct (IHl b) as [e [Hi He]]; [lia|]. exists e. split; [right; auto|auto].
Qed.

Definition spe_lt (x y : spe) : Prop := spe_voff x < spe_voff y.
Notation esorted := (StronglySorted spe_lt).

(* the range given to split_at is between the two halves *)
Lemma split_at_spec : forall l acc off b a,
  split_at acc l off = (b, a) -> rev b ++ a = rev acc ++ l /\
  (forall e, In e a -> esorted l -> off <= spe_voff e) /\
  (forall e, In e b -> In e acc \/ spe_voff e < off).
Proof.
  induction l as [|x r IH]; intros acc off b a H; cbn [split_at] in H.
  - injection H as <- <-. split; [auto|]. split; [intros e []|intros; auto].
  - destruct (Z.ltb_spec (spe_voff x) off) as [Hx|Hx].
    + apply IH in H. destruct H as [H1 [H2 H3]]. cbn [rev] in H1. rewrite <- app_assoc in H1. cbn [app] in H1.
      split; [auto|]. split.
      * intros e Hi Hs. apply H2; auto. inversion Hs; auto.
      * intros e Hi. destruct (H3 e Hi) as [[->|Hi']|Hlt]; auto.
    + injection H as <- <-. split; [auto|]. split; [|intros; auto].
      intros e Hi Hs. inversion Hs as [|? ? ? Hf]; subst. destruct Hi as [<-|Hi]; [lia|].
      rewrite Forall_forall in Hf. specialize (Hf e Hi). unfold spe_lt in Hf. lia.
Qed.

Lemma split_at_eq : forall l off b a, split_at [] l off = (b, a) -> l = rev b ++ a.
Proof. intros l off b a H. apply split_at_spec in H. destruct H as [H _]. simpl in H. auto. Qed.
Lemma split_at_after : forall l off b a, esorted l -> split_at [] l off = (b, a) -> Forall (fun e => off <= spe_voff e) a.
Proof. intros l off b a S H. apply split_at_spec in H. destruct H as [_ [H _]]. apply Forall_forall. auto. Qed.
Lemma split_at_before : forall l off b a, split_at [] l off = (b, a) -> Forall (fun e => spe_voff e < off) b.
Proof.
  intros l off b a H. apply split_at_spec in H. destruct H as [_ [_ H]]. apply Forall_forall. intros e Hi.
  destruct (H e Hi) as [[]|]; auto.
Qed.

Definition spa_inv (m : spamap) : Prop :=
  (forall b, cnt m b <= 1) /\ esorted (sp_ents m) /\ Forall (fun e => 0 < spe_len e) (sp_ents m) /\ 0 < sp_ulen m.

Lemma esorted_app : forall l m, esorted (l ++ m) <->
  esorted l /\ esorted m /\ (forall x y, In x l -> In y m -> spe_lt x y).
Proof.
  induction l; intros m; cbn [app].
  - split; [intros H; split; [constructor|split; [auto|intros x y []]]|tauto].
  - split.
    + intros H. inversion H as [|? ? Hs Hf]; subst. apply IHl in Hs. destruct Hs as [H1 [H2 H3]].
      rewrite Forall_forall in Hf. split; [constructor; auto; apply Forall_forall; intros; apply Hf, in_or_app; auto|].
      split; auto. intros x y [<-|Hx] Hy; auto. apply Hf, in_or_app; auto.
    + intros [H1 [H2 H3]]. inversion H1 as [|? ? Hs Hf]; subst. constructor.
      * apply IHl. split; auto. split; auto. intros; apply H3; auto. right; auto.
      * apply Forall_forall. intros y Hy. apply in_app_or in Hy. destruct Hy as [Hy|Hy].
        { rewrite Forall_forall in Hf. auto. }
        { apply H3; auto. left; auto. }
Qed.

Lemma insert_spe_in : forall l x y, In y (insert_spe l x) <-> y = x \/ In y l.
Proof.
  induction l; intros x y; cbn [insert_spe In]; [intuition congruence|].
  destruct (_ <? _); cbn [In]; [intuition congruence|]. rewrite IHl. tauto.
Qed.
Lemma insert_spe_sorted : forall l x, esorted l -> Forall (fun e => spe_voff e <> spe_voff x) l -> esorted (insert_spe l x).
Proof.
  induction l as [|a l IH]; intros x S N; cbn [insert_spe]; [constructor; constructor|].
  inversion S as [|? ? Hs Hf]; subst. inversion N as [|? ? N1 N2]; subst.
  destruct (Z.ltb_spec (spe_voff x) (spe_voff a)) as [H|H].
  - constructor; auto. constructor; [unfold spe_lt; lia|]. rewrite Forall_forall in *. unfold spe_lt in *.
    intros y Hy. specialize (Hf y Hy). lia.
  - constructor; [auto|]. apply Forall_forall. intros y Hy. apply insert_spe_in in Hy.
    destruct Hy as [->|Hy]; [unfold spe_lt; lia|]. rewrite Forall_forall in Hf. auto.
Qed.

(* an entry that begins where a range of held-nowhere bytes begins is impossible *)
Lemma fresh_keys : forall l off len, 0 < len -> Forall (fun e => 0 < spe_len e) l ->
  (forall b, off <= b < off + len -> ecnt l b = 0) -> Forall (fun e => spe_voff e <> off) l.
Proof.
  intros l off len Hl Hp Hf. rewrite Forall_forall in *. intros e He Heq.
  assert (1 <= ecnt l off); [|specialize (Hf off); lia].
  apply (ecnt_in l e); auto. specialize (Hp e He). unfold in_rng. lia.
Qed.

(* what the result of an addition holds *)
Definition adds (m m' : spamap) (off len : Z) : Prop :=
  spa_inv m' /\ (forall b, cnt m' b = cnt m b + Z.b2z (in_rng off len b)).
Definition drops (m m' : spamap) : Prop := spa_inv m' /\ (forall b, cnt m' b <= cnt m b).

Lemma forall_ecnt_le : forall m m' off len,
  (forall b, cnt m b <= 1) -> (forall b, off <= b < off + len -> cnt m b = 0) ->
  (forall b, cnt m' b = cnt m b + Z.b2z (in_rng off len b)) -> forall b, cnt m' b <= 1.
Proof.
  intros m m' off len H1 H0 H b. rewrite H. unfold in_rng.
  destruct ((off <=? b) && (b <? off + len)) eqn:E; simpl Z.b2z.
  - rewrite H0 by lia. lia.
  - specialize (H1 b). lia.
Qed.

Lemma lifo_add_ok : forall m off len m', spa_inv m -> 0 < len -> (forall b, off <= b < off + len -> cnt m b = 0) ->
  spalifo_add m off len = Some m' -> adds m m' off len.
Proof.
  intros m off len m' [I1 [I2 [I3 I4]]] Hl Hf H. unfold spalifo_add in H.
  destruct ((zlen (sp_lifo m) <? LIFO_MAX) && (sp_ulen m =? len)) eqn:E; [|discriminate]. injection H as <-.
  assert (Hu : sp_ulen m = len) by lia.
  assert (C : forall b, cnt (with_lifo m (off :: sp_lifo m)) b = cnt m b + Z.b2z (in_rng off len b)).
  { intros b. unfold cnt, with_lifo. cbn [sp_ulen sp_lifo sp_ents lcnt]. rewrite Hu. lia. }
  split; [|exact C]. split; [|cbn; auto]. eapply forall_ecnt_le; eauto.
Qed.

Lemma in_rng_join : forall a l1 l2 b, 0 <= l1 -> 0 <= l2 ->
  Z.b2z (in_rng a (l1 + l2) b) = Z.b2z (in_rng a l1 b) + Z.b2z (in_rng (a + l1) l2 b).
Proof.
  intros. unfold in_rng.
  destruct (Z.leb_spec a b), (Z.ltb_spec b (a + (l1 + l2))), (Z.ltb_spec b (a + l1)), (Z.leb_spec (a + l1) b),
    (Z.ltb_spec b (a + l1 + l2)); simpl; lia.
Qed.

Lemma build_inv : forall m l off len, spa_inv m -> 0 < len -> (forall b, off <= b < off + len -> cnt m b = 0) ->
  esorted l -> Forall (fun e => 0 < spe_len e) l ->
  (forall b, ecnt l b = ecnt (sp_ents m) b + Z.b2z (in_rng off len b)) -> adds m (with_ents m l) off len.
Proof.
  intros m l off len [I1 [I2 [I3 I4]]] Hl Hf S P C.
  assert (C' : forall b, cnt (with_ents m l) b = cnt m b + Z.b2z (in_rng off len b)).
  { intros b. unfold cnt, with_ents. cbn [sp_ulen sp_lifo sp_ents]. rewrite C. lia. }
  split; [|exact C']. split; [eapply forall_ecnt_le; eauto|]. cbn [with_ents sp_ents sp_ulen]. auto.
Qed.

Lemma sub_inv : forall m l, spa_inv m -> esorted l -> Forall (fun e => 0 < spe_len e) l ->
  (forall b, ecnt l b <= ecnt (sp_ents m) b) -> drops m (with_ents m l).
Proof.
  intros m l [I1 [I2 [I3 I4]]] S P C. split.
  - split; [|cbn [with_ents sp_ents sp_ulen]; auto]. intros b. specialize (I1 b). specialize (C b).
    unfold cnt, with_ents in *. cbn [sp_ulen sp_lifo sp_ents]. lia.
  - intros b. specialize (C b). unfold cnt, with_ents in *. cbn [sp_ulen sp_lifo sp_ents]. lia.
Qed.

Lemma esorted_rev_last : forall b p p' a, spe_voff p' = spe_voff p ->
  esorted (rev (p :: b) ++ a) -> esorted (rev (p' :: b) ++ a).
Proof.
  intros b p p' a E H. cbn [rev] in *. rewrite <- app_assoc in *. cbn [app] in *.
  apply esorted_app in H. destruct H as [H1 [H2 H3]]. apply esorted_app. split; auto.
  inversion H2 as [|? ? H4 H5]; subst. split.
  - constructor; auto. rewrite Forall_forall in *. intros y Hy. specialize (H5 y Hy). unfold spe_lt in *. lia.
  - intros x y Hx [<-|Hy]; [specialize (H3 x p Hx (or_introl eq_refl)); unfold spe_lt in *; lia|].
    apply H3; auto. right; auto.
Qed.
Lemma esorted_drop_mid : forall l x r, esorted (l ++ x :: r) -> esorted (l ++ r).
Proof.
  intros l x r H. apply esorted_app in H. destruct H as [H1 [H2 H3]]. apply esorted_app. split; auto.
  inversion H2; subst. split; auto. intros; apply H3; auto. right; auto.
Qed.

Lemma merge_ok : forall m off len a r, spa_inv m -> 0 < len -> (forall b, off <= b < off + len -> cnt m b = 0) ->
  spamap_merge m off len a = Some r ->
  match r with SOk m' => adds m m' off len | SErr m' => drops m m' /\ a = false | SUb => False end.
Proof.
  intros m off len a r I Hl Hf H. pose proof I as [I1 [I2 [I3 I4]]]. unfold spamap_merge in H.
  destruct (split_at [] (sp_ents m) off) as [before after] eqn:E.
  pose proof (split_at_eq _ _ _ _ E) as Eq. pose proof (split_at_before _ _ _ _ E) as Hb.
  pose proof (split_at_after _ _ _ _ I2 E) as Ha. rewrite Eq in I2, I3.
  assert (Next : forall n c, after = n :: c -> off + len = spe_voff n ->
    adds m (with_ents m (insert_spe (rev before ++ c) (mkSpe off (spe_end n - off)))) off len /\
    drops m (with_ents m (rev before ++ c))).
  { intros n c -> Hn. apply Forall_app in I3. destruct I3 as [I3a I3b]. inversion I3b as [|? ? Pn Pc]; subst.
    assert (Fc : Forall (fun e => 0 < spe_len e) (rev before ++ c)) by (apply Forall_app; auto). split.
    - apply build_inv; auto.
      + apply insert_spe_sorted; [eapply esorted_drop_mid; eauto|]. cbn [spe_voff]. apply Forall_app. split.
        * apply Forall_rev. eapply Forall_impl; [|exact Hb]. cbv beta. intros; lia.
        * inversion Ha as [|? ? A1 A2]; subst. apply esorted_app in I2. destruct I2 as [_ [I2 _]].
          inversion I2 as [|? ? _ Hs]; subst. eapply Forall_impl; [|exact Hs]. unfold spe_lt. intros; lia.
      + apply Forall_forall. intros e He. apply insert_spe_in in He. destruct He as [->|He].
        * cbn [spe_len]. unfold spe_end. lia.
        * rewrite Forall_forall in Fc. auto.
      + intros b. rewrite ecnt_insert, Eq, !ecnt_app. cbn [ecnt spe_voff spe_len].
        replace (spe_end n - off) with (len + spe_len n) by (unfold spe_end; lia).
        rewrite in_rng_join by lia. rewrite Hn. lia.
    - apply sub_inv; auto; [eapply esorted_drop_mid; eauto|].
      intros b. rewrite Eq, !ecnt_app. cbn [ecnt]. pose proof (b2z_01 (in_rng (spe_voff n) (spe_len n) b)). lia. }
  destruct before as [|p b].
  - destruct after as [|n c]; [discriminate|]. destruct (Z.eqb_spec (off + len) (spe_voff n)) as [Hn|]; [|discriminate].
    destruct (Next n c eq_refl Hn) as [N1 N2]. destruct a; injection H as <-; auto.
  - destruct (Z.eqb_spec (spe_end p) off) as [Hp|Hp].
    + assert (Pp : 0 < spe_len p) by (rewrite Forall_forall in I3; apply I3; cbn [rev]; rewrite !in_app_iff; simpl; auto).
      set (p' := mkSpe (spe_voff p) (spe_len p + len)) in *.
      assert (Fb : Forall (fun e => 0 < spe_len e) (rev (p' :: b) ++ after)).
      { cbn [rev] in I3 |- *. rewrite !Forall_app in *. destruct I3 as [[I3a _] I3b]. split; auto. split; auto.
        constructor; [unfold p'; cbn [spe_len]; lia|constructor]. }
      assert (Only : adds m (with_ents m (rev (p' :: b) ++ after)) off len).
      { apply build_inv; auto.
        - apply esorted_rev_last with (p := p); [reflexivity|exact I2].
        - intros x. rewrite Eq. cbn [rev]. rewrite !ecnt_app. unfold p'. cbn [ecnt spe_voff spe_len].
          rewrite in_rng_join by lia. unfold spe_end in Hp. rewrite Hp. lia. }
      destruct after as [|n c]; [injection H as <-; exact Only|].
      destruct (Z.eqb_spec (spe_end p') (spe_voff n)) as [Hn|Hn]; injection H as <-; [|exact Only].
      apply build_inv; auto.
      * apply esorted_rev_last with (p := p'); [reflexivity|]. apply esorted_drop_mid with (x := n).
        apply esorted_rev_last with (p := p); [reflexivity|exact I2].
      * cbn [rev] in Fb |- *. rewrite !Forall_app in *. destruct Fb as [[F1 F2] F3]. inversion F2; inversion F3; subst.
        split; auto. split; auto. constructor; [cbn [spe_len]; lia|constructor].
      * intros x. rewrite Eq. cbn [rev]. rewrite !ecnt_app. unfold p' in *. cbn [ecnt spe_voff spe_len] in *.
        assert (Pn : 0 < spe_len n) by (rewrite Forall_forall in I3; apply I3; rewrite in_app_iff; simpl; auto).
        rewrite in_rng_join by lia. rewrite in_rng_join by lia. unfold spe_end in *. cbn [spe_voff spe_len] in Hn.
        rewrite <- Hn. rewrite Z.add_assoc. rewrite Hp. lia.
    + destruct after as [|n c]; [discriminate|]. destruct (Z.eqb_spec (off + len) (spe_voff n)) as [Hn|]; [|discriminate].
      destruct (Next n c eq_refl Hn) as [N1 N2]. destruct a; injection H as <-; auto.
Qed.

Lemma drops_refl : forall m, spa_inv m -> drops m m.
Proof. intros m I. split; auto. intros; lia. Qed.

Lemma add_ok : forall m off len a, spa_inv m -> 0 < len -> (forall b, off <= b < off + len -> cnt m b = 0) ->
  match spamap_add m off len a with
  | SOk m' => adds m m' off len
  | SErr m' => drops m m' /\ (a = false \/ sp_cap m <= zlen (sp_ents m) * SPE_SIZE)
  | SUb => a = false end.
Proof.
  intros m off len a I Hl Hf. unfold spamap_add. destruct (spalifo_add m off len) eqn:E.
  - eapply lifo_add_ok; eauto.
  - destruct (spamap_merge m off len a) as [r|] eqn:M.
    + apply merge_ok in M; auto. destruct r; [auto| |tauto]. destruct M. auto.
    + destruct (Z.ltb_spec (zlen (sp_ents m) * SPE_SIZE) (sp_cap m)); [|split; [apply drops_refl; auto|lia]].
      unfold spamap_insert. destruct a.
      * pose proof I as [I1 [I2 [I3 I4]]]. apply build_inv; auto.
        { apply insert_spe_sorted; auto. cbn [spe_voff]. eapply fresh_keys with (len := len); eauto.
          intros b Hb. specialize (Hf b Hb). unfold cnt in Hf. pose proof (lcnt_nn (sp_ulen m) (sp_lifo m) b).
          pose proof (ecnt_nn (sp_ents m) b). lia. }
        { apply Forall_forall. intros e He. apply insert_spe_in in He. destruct He as [->|He]; [auto|].
          rewrite Forall_forall in I3; auto. }
        { intros b. rewrite ecnt_insert. reflexivity. }
      * destruct (maximal_spe (sp_ents m)); [destruct (_ <? _); [|reflexivity]|]; (split; [apply drops_refl; auto|auto]).
Qed.

Lemma pop_ok : forall m len m' off, spa_inv m -> 0 < len -> spamap_pop m len = Some (m', off) ->
  spa_inv m' /\ (forall b, cnt m' b = cnt m b - Z.b2z (in_rng off len b)).
Proof.
  intros m len m' off [I1 [I2 [I3 I4]]] Hl H. unfold spamap_pop in H.
  destruct (spalifo_pop m len) as [[m1 o1]|] eqn:E.
  - injection H as <- <-. unfold spalifo_pop in E. destruct (sp_lifo m) as [|o r] eqn:L; [discriminate|].
    destruct (Z.eqb_spec (sp_ulen m) len) as [Hu|]; [|discriminate]. injection E as <- <-.
    assert (C : forall b, cnt (with_lifo m r) b = cnt m b - Z.b2z (in_rng o len b)).
    { intros b. unfold cnt, with_lifo. rewrite L. cbn [sp_ulen sp_lifo sp_ents lcnt]. rewrite Hu. lia. }
    split; [|exact C]. split; [|cbn; auto]. intros b. rewrite C. specialize (I1 b). pose proof (b2z_01 (in_rng o len b)). lia.
  - destruct (sp_ents m) as [|e r] eqn:En; [discriminate|]. inversion I2 as [|? ? S1 S2]; subst.
    inversion I3 as [|? ? P1 P2]; subst.
    destruct (Z.ltb_spec (spe_len e) len); [discriminate|].
    destruct (Z.ltb_spec len (spe_len e)); injection H as <- <-.
    + set (e' := mkSpe (spe_voff e + len) (spe_len e - len)).
      assert (C : forall b, cnt (with_ents m (e' :: r)) b = cnt m b - Z.b2z (in_rng (spe_voff e) len b)).
      { intros b. unfold cnt, with_ents. rewrite En. cbn [sp_ulen sp_lifo sp_ents ecnt]. unfold e'. cbn [spe_voff spe_len].
        replace (spe_len e) with (len + (spe_len e - len)) at 2 by lia. rewrite in_rng_join by lia. lia. }
      split; [|exact C]. split; [|split; [|split; [|cbn; auto]]]; cbn [with_ents sp_ents].
      * intros b. rewrite C. specialize (I1 b). pose proof (b2z_01 (in_rng (spe_voff e) len b)). lia.
      * constructor; auto. apply Forall_forall. intros y Hy. rewrite Forall_forall in S2, P2. specialize (S2 y Hy).
        specialize (P2 y Hy). unfold spe_lt, e' in *. cbn [spe_voff].
        destruct (Z.lt_ge_cases (spe_voff e + len) (spe_voff y)); auto.
        specialize (I1 (spe_voff y)). unfold cnt in I1. rewrite En in I1. cbn [ecnt] in I1.
        pose proof (ecnt_in r y (spe_voff y) Hy). pose proof (lcnt_nn (sp_ulen m) (sp_lifo m) (spe_voff y)).
        unfold in_rng in *.
        assert (1 <= ecnt r (spe_voff y)) by (apply H2; lia).
        replace ((spe_voff e <=? spe_voff y) && (spe_voff y <? spe_voff e + spe_len e)) with true in I1 by lia.
        simpl Z.b2z in I1. lia.
      * constructor; auto. unfold e'. cbn [spe_len]. lia.
    + assert (Hlen : spe_len e = len) by lia.
      assert (C : forall b, cnt (with_ents m r) b = cnt m b - Z.b2z (in_rng (spe_voff e) len b)).
      { intros b. unfold cnt, with_ents. rewrite En. cbn [sp_ulen sp_lifo sp_ents ecnt]. rewrite Hlen. lia. }
      split; [|exact C]. split; [|cbn [with_ents sp_ents sp_ulen]; auto].
      intros b. rewrite C. specialize (I1 b). pose proof (b2z_01 (in_rng (spe_voff e) len b)). lia.
Qed.

Lemma pop_held : forall m len m' off b, spa_inv m -> 0 < len -> spamap_pop m len = Some (m', off) ->
  off <= b < off + len -> 1 <= cnt m b.
Proof.
  intros m len m' off b I Hl H Hb. destruct (pop_ok _ _ _ _ I Hl H) as [I' C]. specialize (C b).
  assert (0 <= cnt m' b) by (unfold cnt; pose proof (ecnt_nn (sp_ents m') b); pose proof (lcnt_nn (sp_ulen m') (sp_lifo m') b); lia).
  unfold in_rng in C. replace ((off <=? b) && (b <? off + len)) with true in C by lia. simpl Z.b2z in C. lia.
Qed.

(* when every range is a multiple of the unit, a unit can be popped unless nothing is held *)
Definition mult_inv (u : Z) (m : spamap) : Prop := sp_ulen m = u /\ Forall (fun e => spe_len e mod u = 0) (sp_ents m).

Lemma pop_none_empty : forall m u, spa_inv m -> mult_inv u m -> spamap_pop m u = None -> sp_lifo m = [] /\ sp_ents m = [].
Proof.
  intros m u [I1 [I2 [I3 I4]]] [Hu Hm] H. unfold spamap_pop, spalifo_pop in H.
  destruct (sp_lifo m) as [|o r]; [|rewrite Hu, Z.eqb_refl in H; discriminate].
  destruct (sp_ents m) as [|e r]; [auto|]. inversion I3; subst. inversion Hm as [|? ? M1 M2]; subst.
  destruct (Z.ltb_spec (spe_len e) (sp_ulen m)); [|destruct (_ <? _); discriminate].
  rewrite Z.mod_small in M1 by lia. lia.
Qed.

Lemma mod_add0 : forall a b u, 0 < u -> a mod u = 0 -> b mod u = 0 -> (a + b) mod u = 0.
Proof. intros. rewrite Z.add_mod by lia. rewrite H0, H1. apply Z.mod_0_l. lia. Qed.
Lemma mod_sub0 : forall a b u, 0 < u -> a mod u = 0 -> b mod u = 0 -> (a - b) mod u = 0.
Proof. intros. rewrite Zminus_mod. rewrite H0, H1. apply Z.mod_0_l. lia. Qed.

Lemma mult_insert : forall l x u, Forall (fun e => spe_len e mod u = 0) l -> spe_len x mod u = 0 ->
  Forall (fun e => spe_len e mod u = 0) (insert_spe l x).
Proof.
  intros l x u H Hx. apply Forall_forall. intros e He. apply insert_spe_in in He. destruct He as [->|He]; auto.
  rewrite Forall_forall in H; auto.
Qed.

Lemma add_mult : forall m off len a u, 0 < u -> mult_inv u m -> len mod u = 0 ->
  match spamap_add m off len a with SOk m' | SErr m' => mult_inv u m' | SUb => True end.
Proof.
  intros m off len a u Hu [M1 M2] Hl. unfold spamap_add. destruct (spalifo_add m off len) eqn:E.
  { unfold spalifo_add in E. destruct (_ && _); [|discriminate]. injection E as <-. split; auto. }
  destruct (spamap_merge m off len a) as [r|] eqn:M.
  - unfold spamap_merge in M. destruct (split_at [] (sp_ents m) off) as [before after] eqn:S.
    apply split_at_eq in S. rewrite S in M2. apply Forall_app in M2. destruct M2 as [Mb Ma].
    assert (Mb' : Forall (fun e => spe_len e mod u = 0) before).
    { rewrite <- (rev_involutive before). apply Forall_rev. auto. }
    destruct before as [|p b].
    + destruct after as [|n c]; [discriminate|]. destruct (Z.eqb_spec (off + len) (spe_voff n)); [|discriminate].
      inversion Ma; subst. destruct a; injection M as <-; (split; [auto|]); cbn [with_ents sp_ents].
      * apply mult_insert; auto. cbn [spe_len]. replace (spe_end n - off) with (len + spe_len n) by (unfold spe_end; lia).
        apply mod_add0; auto.
      * simpl. auto.
    + inversion Mb' as [|? ? Hp Hb]; subst. destruct (spe_end p =? off).
      * destruct after as [|n c].
        { injection M as <-. split; auto. cbn [with_ents sp_ents rev]. rewrite !Forall_app. split; auto. split; [apply Forall_rev; auto|].
          constructor; auto. cbn [spe_len]. apply mod_add0; auto. }
        inversion Ma as [|? ? Hn Hc]; subst. cbn [spe_voff spe_len] in M.
        destruct (_ =? _); injection M as <-; (split; [auto|]); cbn [with_ents sp_ents rev]; rewrite !Forall_app;
          (split; [split; [apply Forall_rev; auto|]|auto]); constructor; auto; cbn [spe_len].
        { apply mod_add0; auto. apply mod_add0; auto. }
        { apply mod_add0; auto. }
      * destruct after as [|n c]; [discriminate|]. destruct (Z.eqb_spec (off + len) (spe_voff n)); [|discriminate].
        inversion Ma; subst. destruct a; injection M as <-; (split; [auto|]); cbn [with_ents sp_ents].
        { apply mult_insert; [rewrite Forall_app; auto|]. cbn [spe_len].
          replace (spe_end n - off) with (len + spe_len n) by (unfold spe_end; lia). apply mod_add0; auto. }
        { rewrite Forall_app; auto. }
  - destruct (_ <? _); [|split; auto]. unfold spamap_insert. destruct a.
    + split; auto. cbn [with_ents sp_ents]. apply mult_insert; auto.
    + destruct (maximal_spe (sp_ents m)); [destruct (_ <? _)|]; auto; split; auto.
Qed.

Lemma pop_mult : forall m len m' off u, 0 < u -> mult_inv u m -> len mod u = 0 ->
  spamap_pop m len = Some (m', off) -> mult_inv u m'.
Proof.
  intros m len m' off u Hu [M1 M2] Hl H. unfold spamap_pop in H. destruct (spalifo_pop m len) as [[m1 o1]|] eqn:E.
  - injection H as <- <-. unfold spalifo_pop in E. destruct (sp_lifo m); [discriminate|]. destruct (_ =? _); [|discriminate].
    injection E as <- <-. split; auto.
  - destruct (sp_ents m) as [|e r]; [discriminate|]. inversion M2 as [|? ? Ee Er]; subst. destruct (_ <? len); [discriminate|].
    destruct (_ <? _); injection H as <- <-; (split; [auto|]); cbn [with_ents sp_ents]; auto.
    constructor; auto. cbn [spe_len]. apply mod_sub0; auto.
Qed.
