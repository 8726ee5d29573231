(* What holds of archive and restore runs whatever goes wrong in them. *)
From Verif Require Import Base AddrModel AddrProofs WalkModel PackModel PackSpec PackProofs.
From Coq Require Import ZifyBool.

(* I is kept by every outcome of m, and V holds of what it yields *)
Definition sat {A} (I : repo -> list desc -> Prop) (m : M A) (V : A -> Prop) : Prop :=
  forall s, I (s_repo s) (s_descs s) ->
    I (s_repo (snd (m s))) (s_descs (snd (m s))) /\ match fst (m s) with Ok a => V a | _ => True end.

Lemma sat_ret : forall A I (a : A) (V : A -> Prop), V a -> sat I (ret a) V.
Proof. intros A I a V H s HI. split; auto. Qed.
Lemma sat_fail : forall A I e (V : A -> Prop), sat I (fail e) V.
Proof. intros A I e V s HI. split; cbn; auto. Qed.
Lemma sat_abort : forall A I (V : A -> Prop), sat I abort V.
Proof. intros A I V s HI. split; cbn; auto. Qed.
Lemma sat_bind : forall A B I (m : M A) (k : A -> M B) (V : A -> Prop) (W : B -> Prop),
  sat I m V -> (forall a, V a -> sat I (k a) W) -> sat I (bind m k) W.
Proof.
  intros A B I m k V W Hm Hk s HI. unfold bind. destruct (Hm s HI) as (H1 & H2).
  destruct (m s) as [[a|e|] s']; cbn in *; auto. apply Hk; auto.
Qed.
Lemma sat_weak : forall A I (m : M A) (V W : A -> Prop),
  sat I m V -> (forall a, V a -> W a) -> sat I m W.
Proof.
  intros A I m V W H HW s HI. destruct (H s HI) as (H1 & H2). split; auto.
  destruct (fst (m s)); auto.
Qed.
Lemma sat_may_fail : forall I e, sat I (may_fail e) (fun _ => True).
Proof.
  intros I e [r f d] HI. unfold may_fail, next_fate. cbn [s_fates].
  destruct f as [|[|n] f]; split; cbn in *; auto.
Qed.
(* a continuation that looks at the repository *)
Lemma sat_get : forall A (I : repo -> list desc -> Prop) (k : repo -> M A) (V : A -> Prop),
  (forall s, I (s_repo s) (s_descs s) ->
     I (s_repo (snd (k (s_repo s) s))) (s_descs (snd (k (s_repo s) s))) /\ match fst (k (s_repo s) s) with Ok a => V a | _ => True end) ->
  sat I (bind get_repo k) V.
Proof. intros A I k V H s HI. unfold bind, get_repo. apply H; auto. Qed.
Lemma sat_or_noent : forall A I (m k h : M A) (V W : A -> Prop),
  sat I m V -> sat I k W -> sat I h W -> sat I (or_noent m k h) W.
Proof.
  intros A I m k h V W Hm Hk Hh s HI. unfold or_noent. destruct (Hm s HI) as (H1 & H2).
  destruct (m s) as [[a|e|] s']; cbn in *; auto. destruct e; cbn; auto.
Qed.

Lemma sat_open : forall I l, sat I (open_lseg l) (fun _ => True).
Proof.
  intros I l. unfold open_lseg. eapply sat_bind; [apply sat_may_fail|]. intros _ _.
  apply sat_get. intros s HI. destruct (r_segs (s_repo s) l) as [g|]; [|split; cbn; auto].
  destruct (negb (sg_size g mod LBK_SIZE =? 0)); [split; cbn; auto|].
  destruct (sg_size g >? ls_lsize l + LBK_SIZE); split; cbn; auto.
Qed.
Lemma sat_stat : forall I l, sat I (stat_lseg l) (fun _ => True).
Proof.
  intros I l. unfold stat_lseg. eapply sat_bind; [apply sat_may_fail|]. intros _ _.
  apply sat_get. intros s HI. destruct (r_segs (s_repo s) l) as [g|]; [|split; cbn; auto].
  destruct (sg_size g >? ls_lsize l + LBK_SIZE); split; cbn; auto.
Qed.

(* ---- restoring: what may change ---- *)
Section Frame.
Variables (E : env) (ds : list desc) (R : repo).
Notation I := (frame E ds R).

Lemma frame_seg : forall r l g', I r -> names ds l ->
  (forall p, outside ds l p ->
     match r_segs r l with
     | Some g => sg_size g <= sg_size g' /\ (0 <= p < sg_size g' ->
                  sg_at g' p = if p <? sg_size g then sg_at g p else 0)
     | None => 0 <= p < sg_size g' -> sg_at g' p = 0
     end) ->
  I (upd_seg r l (Some g')).
Proof.
  intros r l g' (I1 & I2 & I3 & I4) NM H. split; [auto|split; [|split; auto]].
  intros x p O. unfold same_or_zero. destruct (lsid_dec x l) as [->|N].
  - specialize (H p O). specialize (I2 l p O). unfold same_or_zero, seg_byte in *.
    rewrite seg_same. destruct (r_segs r l) as [g|].
    + destruct H as (H1 & H2).
      destruct ((0 <=? p) && (p <? sg_size g')) eqn:C.
      * rewrite H2 by lia. destruct (p <? sg_size g) eqn:C2.
        -- replace ((0 <=? p) && true) with true in I2 by lia. auto.
        -- rewrite andb_false_r in I2. destruct I2 as [I2|(_ & _ & I2)]; [|discriminate].
           right. split; auto.
      * replace ((0 <=? p) && (p <? sg_size g)) with false in I2 by lia. auto.
    + destruct ((0 <=? p) && (p <? sg_size g')) eqn:C.
      * rewrite H by lia. destruct I2 as [I2|(_ & _ & I2)]; [|discriminate]. right. split; auto.
      * auto.
  - specialize (I2 x p O). unfold same_or_zero, seg_byte in *. rewrite seg_other by auto. auto.
Qed.

Lemma sat_spawn : forall l, names ds l -> sat (fun r _ => I r) (spawn_lseg l) (fun _ => True).
Proof.
  intros l NM. unfold spawn_lseg. eapply sat_bind; [apply sat_may_fail|]. intros _ _.
  apply sat_get. intros s HI. destruct (r_segs (s_repo s) l) as [g|] eqn:G; [split; cbn; auto|].
  split; [|exact Logic.I]. cbn [set_repo snd s_repo].
  apply frame_seg; auto. intros p O. rewrite G. intros _. reflexivity.
Qed.

Lemma sat_repo_require : forall l, names ds l -> sat (fun r _ => I r) (repo_require_lseg l) (fun _ => True).
Proof.
  intros l NM. unfold repo_require_lseg. eapply sat_or_noent; [apply sat_stat| |].
  - eapply sat_bind; [apply sat_open|]. intros a _. apply sat_ret; auto.
  - eapply sat_bind; [apply sat_spawn; auto|]. intros _ _.
    eapply sat_bind; [apply sat_open|]. intros a _. apply sat_ret; auto.
Qed.

(* what open yields is what is there *)
Lemma open_bind : forall A l (k : seg -> M A) (V : A -> Prop),
  (forall s g, I (s_repo s) -> r_segs (s_repo s) l = Some g ->
     I (s_repo (snd (k g s))) /\ match fst (k g s) with Ok a => V a | _ => True end) ->
  sat (fun r _ => I r) (bind (open_lseg l) k) V.
Proof.
  intros A l k V H s HI. unfold open_lseg, may_fail, next_fate, get_repo.
  destruct s as [r f d]. unfold bind; cbn [s_fates]. cbn [s_repo] in HI.
  assert (K : forall f', let s1 := mkSt r f' d in
     let x := match (match r_segs (s_repo s1) l with
        | None => fail ENoent
        | Some g => if negb (sg_size g mod LBK_SIZE =? 0) then fail ELseg
                    else if sg_size g >? ls_lsize l + LBK_SIZE then fail ELseg else ret g end s1) with
        | (Ok a, s') => k a s' | (Err e, s') => (Err e, s') | (Abort, s') => (Abort, s') end in
     I (s_repo (snd x)) /\ match fst x with Ok a => V a | _ => True end).
  { intros f'. cbv zeta. cbn [s_repo]. destruct (r_segs r l) as [g|] eqn:G; [|split; cbn; auto].
    destruct (negb (sg_size g mod LBK_SIZE =? 0)); [split; cbn; auto|].
    destruct (sg_size g >? ls_lsize l + LBK_SIZE); [split; cbn; auto|].
    cbn [ret]. apply H; auto. }
  destruct f as [|[|n] f].
  - apply (K []).
  - apply (K f).
  - split; cbn; auto.
Qed.

Lemma sat_size_ge : forall l off len, names ds l -> sat (fun r _ => I r) (require_size_ge l off len) (fun _ => True).
Proof.
  intros l off len NM. unfold require_size_ge. apply open_bind. intros s g HI G. cbv zeta.
  set (want := Z.max (off + len) (off_next off LBK_SIZE)).
  destruct (sg_size g >=? want) eqn:C1; [split; cbn; auto|].
  destruct (want <? 0) eqn:C2; [split; cbn; auto|].
  destruct (want >? ls_lsize l + LBK_SIZE); [split; cbn; auto|].
  assert (K : forall r, r_segs r l = Some g -> I r -> I (upd_seg r l (Some (sgrow g (round_lbk want))))).
  { intros r GR IR. destruct (round_lbk_facts want ltac:(lia)) as (W1 & _ & _).
    apply frame_seg; auto. intros p O. rewrite GR. cbn. split; [lia|]. auto. }
  unfold bind, may_fail, next_fate, get_repo. destruct s as [r f d]. cbn [s_fates]. cbn in HI, G.
  destruct f as [|[|n] f]; split; cbn -[upd_seg round_lbk]; auto.
Qed.

Lemma sat_write : forall d b, In d ds -> is_bootrec (d_laddr d) = false ->
  Z.of_nat (length b) <= Z.max 0 (la_len (d_laddr d)) ->
  sat (fun r _ => I r) (write_at (d_laddr d) b) (fun _ => True).
Proof.
  intros d b IN NB LB. set (a := d_laddr d) in *.
  assert (NM : names ds (la_lsid a)) by (exists d; auto).
  unfold write_at. eapply sat_bind; [apply sat_size_ge; auto|]. intros _ _.
  apply open_bind. intros s g HI G.
  destruct (la_pos a <? 0); [split; cbn; auto|].
  destruct (la_end a >? ls_lsize (la_lsid a) + LBK_SIZE); [split; cbn; auto|].
  assert (K : forall r b', r_segs r (la_lsid a) = Some g -> I r -> (length b' <= length b)%nat ->
     I (upd_seg r (la_lsid a) (Some (swrite g (la_pos a) b')))).
  { intros r b' GR IR L. apply frame_seg; auto. intros p O. rewrite GR. cbn. split; [lia|]. intros P.
    destruct ((la_pos a <=? p) && (p <? la_pos a + Z.of_nat (length b'))) eqn:C.
    - exfalso. apply (O d IN NB). split; auto. fold a. lia.
    - replace (p <? sg_size g) with true by lia. auto. }
  unfold pwrite_lseg, next_fate. destruct s as [r f d0]. cbn [s_fates]. cbn in HI, G.
  destruct f as [|[|n] f]; split; cbn -[upd_seg swrite firstn]; auto.
  apply K; auto. rewrite firstn_length. lia.
Qed.

Lemma sat_load_pack : forall c n (J : repo -> list desc -> Prop),
  sat J (load_pack c n) (fun b => Z.of_nat (length b) <= Z.max 0 n).
Proof.
  intros c n J. unfold load_pack. eapply sat_bind; [apply sat_may_fail|]. intros _ _.
  apply sat_get. intros s HI. destruct (r_packs (s_repo s) c) as [e|]; [|split; cbn; auto].
  destruct (Z.of_nat (length e) <? n); [split; cbn; auto|].
  split; cbn; auto. rewrite firstn_length. lia.
Qed.

Lemma sat_import_seg : forall d, In d ds -> is_bootrec (d_laddr d) = false ->
  sat (fun r _ => I r) (import_seg d) (fun _ => True).
Proof.
  intros d IN NB. assert (NM : names ds (la_lsid (d_laddr d))) by (exists d; auto).
  unfold import_seg. eapply sat_bind; [apply sat_may_fail|]. intros _ _.
  eapply sat_bind; [apply sat_load_pack|]. intros b LB. cbn beta in LB.
  unfold save_seg, require_laddr.
  eapply sat_bind; [apply sat_repo_require; auto|]. intros _ _.
  eapply sat_bind; [apply sat_size_ge; auto|]. intros _ _.
  apply sat_write; auto.
Qed.

Lemma sat_import_boot : forall d, sat (fun r _ => I r) (import_boot E d) (fun _ => True).
Proof.
  intros d. unfold import_boot. eapply sat_bind; [apply sat_load_pack|]. intros b _.
  destruct (e_bdec E b) as [br|]; [|apply sat_fail].
  eapply sat_bind with (V := fun _ => True).
  - unfold save_bootrec. eapply sat_bind with (V := fun _ => True).
    + unfold save_blob. eapply sat_bind; [apply sat_may_fail|]. intros _ _.
      intros s HI. destruct s as [r f d0]. cbn [s_repo s_fates s_descs] in *.
      assert (K : forall r n, I r -> I (upd_blob r (ca_hash (caddr_of E (e_benc E br) CT_BOOTREC))
            (overwrite (firstn n (e_benc E br)) (contents (r_blobs r (ca_hash (caddr_of E (e_benc E br) CT_BOOTREC))))))).
      { intros r0 n (I1 & I2 & I3 & I4). split; [auto|split; [auto|split; auto]].
        intros h. cbn. destruct (bytes_eqb h (e_hash E (e_benc E br))) eqn:X; [|apply I3].
        apply bytes_eqb_eq in X. right. eexists. split; [reflexivity|]. eexists _, _, _. split; eauto. }
      assert (KA : I (upd_blob r (ca_hash (caddr_of E (e_benc E br) CT_BOOTREC))
            (overwrite (e_benc E br) (contents (r_blobs r (ca_hash (caddr_of E (e_benc E br) CT_BOOTREC))))))).
      { specialize (K r (length (e_benc E br)) HI). rewrite firstn_all in K. exact K. }
      unfold next_fate. cbn [s_fates]. destruct f as [|[|n] f]; split; cbn -[upd_blob overwrite contents firstn caddr_of]; auto.
    + intros _ _. eapply sat_bind with (V := fun _ => True); [|intros _ _; apply sat_ret; auto].
      unfold create_ref. eapply sat_bind; [apply sat_may_fail|]. intros _ _.
      apply sat_get. intros s (I1 & I2 & I3 & I4). split; [|exact Logic.I]. cbn [set_repo snd s_repo].
      split; [auto|split; [auto|split; auto]].
      intros c. cbn. destruct (caddr_eqb c (caddr_of E (e_benc E br) CT_BOOTREC)) eqn:X.
      * apply caddr_eqb_eq in X. right. split; eauto.
      * apply I4.
  - intros c _. destruct (caddr_eqb (d_caddr d) c); [apply sat_ret; auto|apply sat_fail].
Qed.

Lemma sat_import_all : forall l, incl l ds -> sat (fun r _ => I r) (import_all E l) (fun _ => True).
Proof.
  induction l as [|d l IH]; intros L; cbn [import_all]; [apply sat_ret; auto|].
  eapply sat_bind with (V := fun _ => True); [|intros _ _; apply IH; intros x Hx; apply L; right; auto].
  destruct (is_bootrec (d_laddr d)) eqn:B; [apply sat_import_boot|].
  apply sat_import_seg; auto. apply L; left; auto.
Qed.

Lemma frame_refl : I R.
Proof. split; [auto|split; [|split; auto]]. intros l p _. left; auto. Qed.
End Frame.

(* reading the index changes nothing; what it yields is what the stored object says *)
Lemma import_index_spec : forall E c s,
  s_repo (snd (import_index E c s)) = s_repo s /\
  match fst (import_index E c s) with
  | Ok ds => ca_type c = CT_PACKIDX /\ exists e, r_packs (s_repo s) c = Some e /\ index_decode E c e = Ok ds
  | Abort => ca_type c <> CT_PACKIDX \/ exists e, r_packs (s_repo s) c = Some e /\ index_decode E c e = Abort
  | Err _ => True
  end.
Proof.
  intros E c s. unfold import_index. destruct (ca_type c =? CT_PACKIDX) eqn:T; cbn [negb].
  2:{ split; auto. cbn. left. lia. }
  apply Z.eqb_eq in T.
  unfold bind, may_fail, load_pack, get_repo, next_fate. destruct s as [r f d]. cbn [s_fates s_repo s_descs].
  assert (FN : forall e : bytes, firstn (Z.to_nat (Z.of_nat (length e))) e = e) by (intros; rewrite Nat2Z.id; apply firstn_all).
  destruct f as [|[|n] f]; cbn [s_fates s_repo s_descs]; [| |split; cbn; auto].
  - destruct (r_packs r c) as [e|] eqn:PK; [|split; cbn; auto].
    destruct (negb (index_size_ok (Z.of_nat (length e)))); [split; cbn; auto|].
    unfold bind, may_fail, next_fate. cbn [s_fates s_repo s_descs]. rewrite PK, Z.ltb_irrefl. cbn [ret]. rewrite FN.
    cbn [s_fates]. destruct (index_decode E c e) eqn:D; split; cbn; auto; [split; eauto|right; eauto].
  - destruct (r_packs r c) as [e|] eqn:PK; [|split; cbn; auto].
    destruct (negb (index_size_ok (Z.of_nat (length e)))); [split; cbn; auto|].
    unfold bind, may_fail, next_fate.
    destruct f as [|[|n] f]; cbn [s_fates s_repo s_descs]; [| |split; cbn; auto].
    + rewrite PK, Z.ltb_irrefl. cbn [ret]. rewrite FN. cbn [s_fates].
      destruct (index_decode E c e) eqn:D; split; cbn; auto; [split; eauto|right; eauto].
    + destruct f as [|[|n] f]; cbn [s_fates s_repo s_descs]; [| |split; cbn; auto].
      * rewrite PK, Z.ltb_irrefl. cbn [ret]. rewrite FN. cbn [s_fates].
        destruct (index_decode E c e) eqn:D; split; cbn; auto; [split; eauto|right; eauto].
      * rewrite PK, Z.ltb_irrefl. cbn [ret]. rewrite FN. cbn [s_fates].
        destruct f as [|[|n] f]; cbn [s_fates s_repo s_descs]; [| |split; cbn; auto];
        destruct (index_decode E c e) eqn:D; split; cbn; auto; [split; eauto|right; eauto|split; eauto|right; eauto].
Qed.

Lemma fs_unpack_frame : forall E c s, let s' := snd (fs_unpack E c s) in
  s_repo s' = s_repo s \/
  exists e ds, r_packs (s_repo s) c = Some e /\ index_decode E c e = Ok ds /\ frame E ds (s_repo s) (s_repo s').
Proof.
  intros E c s. cbv zeta. unfold fs_unpack, bind.
  destruct (import_index_spec E c s) as (H1 & H2).
  destruct (import_index E c s) as [[ds|e|] s1]; cbn [fst snd] in *; auto.
  right. destruct H2 as (_ & e & PK & D). exists e, ds. split; auto. split; auto.
  rewrite <- H1.
  pose proof (sat_import_all E ds (s_repo s1) ds (incl_refl _) s1 (frame_refl _ _ _)) as (K & _).
  destruct (import_all E ds s1) as [[u|e'|] s2]; cbn [fst snd] in *; try exact K.
  unfold import_post. destruct (filter (fun d => is_bootrec (d_laddr d)) ds) as [|x [|y q]]; exact K.
Qed.

Lemma index_decode_digest : forall E c e ds, index_decode E c e = Ok ds \/ index_decode E c e = Abort ->
  exists k, (k < 256)%nat /\ (k <= length e)%nat /\
    c = caddr_of E (firstn (length e - k) e) CT_PACKIDX.
Proof.
  intros E c e ds H. unfold index_decode in H.
  destruct (index_size_ok (Z.of_nat (length e))) eqn:OK; cbn [negb] in H; [|destruct H; discriminate].
  set (max := ndescs_max (Z.of_nat (length e))) in *.
  set (n := Z.to_nat (HDR_SIZE + max * DSC_SIZE)) in *.
  destruct (caddr_eqb c (caddr_of E (firstn n e) CT_PACKIDX)) eqn:C; cbn [negb] in H; [|destruct H; discriminate].
  apply caddr_eqb_eq in C.
  assert (N : (n <= length e)%nat /\ (length e - n < 256)%nat).
  { unfold n, max, ndescs_max, index_size_ok, PAR_INDEX_MIN, LBK_SIZE, HDR_SIZE, DSC_SIZE in *.
    pose proof (Z.div_mod (Z.of_nat (length e) - 1024) 256 ltac:(lia)).
    pose proof (Z.mod_pos_bound (Z.of_nat (length e) - 1024) 256 ltac:(lia)). lia. }
  exists (length e - n)%nat. split; [lia|]. split; [lia|].
  replace (length e - (length e - n))%nat with n by lia. exact C.
Qed.

(* ---- archiving: the store stays intact ---- *)
Section Store.
Variables (E : env) (R : repo) (v : vol).
Hypothesis DG : digests E.
Hypothesis TY : typed E v.
Hypothesis BS : boot_stable E R v.

Definition dshape (d : desc) : Prop := length (desc_htox d) = 256%nat.
Definition store0 (r : repo) : Prop :=
  packs_ok E r /\ (forall c, ca_type c = CT_PACKIDX -> r_packs r c = r_packs R c) /\
  r_blobs r = r_blobs R.
Definition store (r : repo) (d : list desc) : Prop := store0 r /\ Forall dshape d.

Lemma overwrite_length : forall b e, length (overwrite b e) = Nat.max (length b) (length e).
Proof. intros. unfold overwrite. rewrite app_length, skipn_length. lia. Qed.

Lemma store_put : forall r b t n, store0 r -> t <> CT_PACKIDX -> Z.of_nat (length b) < 2 ^ 32 ->
  (forall e, r_packs r (caddr_of E b t) = Some e -> length e <> length b) ->
  store0 (upd_pack r (caddr_of E b t) (overwrite (firstn n b) (contents (r_packs r (caddr_of E b t))))).
Proof.
  intros r b t n (P & X & B) T L NE. set (c := caddr_of E b t) in *.
  assert (SZ : ca_size c = Z.of_nat (length b)) by (apply u32_id; lia).
  assert (OL : (length (contents (r_packs r c)) <= length b /\
                (length (contents (r_packs r c)) < length b \/ length b = 0))%nat).
  { destruct (r_packs r c) as [e|] eqn:PK; cbn [contents].
    - destruct (P c e PK) as (Q & _). specialize (NE e eq_refl). lia.
    - cbn. lia. }
  split; [|split; auto].
  - intros c' e H. destruct (caddr_dec c' c) as [->|N].
    + rewrite upd_pack_same in H. inversion H; subst e; clear H. rewrite overwrite_length, firstn_length. split; [lia|].
      intros LL. destruct (Nat.le_gt_cases (length b) n) as [G|G].
      * rewrite firstn_all2 by auto. rewrite overwrite_short; [reflexivity|lia].
      * exfalso. lia.
    + rewrite upd_pack_other in H by auto. auto.
  - intros c' T'. rewrite upd_pack_other; auto. intros ->. apply T. exact T'.
Qed.

Lemma sat_send : forall b t, t <> CT_PACKIDX -> Z.of_nat (length b) < 2 ^ 32 ->
  sat store (send_pack (caddr_of E b t) b) (fun _ => True).
Proof.
  intros b t T L. unfold send_pack. eapply sat_bind; [apply sat_may_fail|]. intros _ _.
  apply sat_get. intros s HI. set (c := caddr_of E b t).
  assert (K : (forall e, r_packs (s_repo s) c = Some e -> length e <> length b) ->
     store (s_repo (snd (save_pack c b s))) (s_descs (snd (save_pack c b s))) /\ match fst (save_pack c b s) with Ok _ => True | _ => True end).
  { intros NE. unfold save_pack, bind, may_fail, next_fate. destruct s as [r f d]. cbn [s_repo s_fates s_descs] in *.
    destruct HI as (HI & HD). pose proof (fun n => conj (store_put r b t n HI T L NE) HD) as SP. fold c in SP.
    change (forall n, store (upd_pack r c (overwrite (firstn n b) (contents (r_packs r c)))) d) in SP.
    pose proof (SP (length b)) as SA. rewrite firstn_all in SA.
    destruct f as [|[|n] f]; cbn [s_repo s_fates s_descs fst snd]; [auto| |split; [split; auto|auto]].
    destruct f as [|[|m] f]; cbn [s_repo s_fates s_descs fst snd]; auto. }
  destruct (r_packs (s_repo s) c) as [e|] eqn:PK.
  - destruct (Nat.eqb (length e) (length b)) eqn:Q.
    + split; cbn; auto.
    + apply K. intros e' H. inversion H; subst. apply Nat.eqb_neq in Q. auto.
  - apply K. discriminate.
Qed.

Lemma sat_read : forall (J : repo -> list desc -> Prop) a, sat J (read_at a) (fun b => length b = Z.to_nat (la_len a)).
Proof.
  intros J a. unfold read_at. eapply sat_bind; [apply sat_open|]. intros g _.
  destruct (sg_size g <? la_end a); [apply sat_abort|].
  destruct (la_pos a <? 0); [apply sat_fail|].
  destruct (la_end a >? ls_lsize (la_lsid a) + LBK_SIZE); [apply sat_fail|].
  eapply sat_bind; [apply sat_may_fail|]. intros _ _. apply sat_ret.
  unfold sread. rewrite map_length, seq_length. auto.
Qed.

Lemma sat_export_seg : forall a, proper a -> sat store (export_seg E a) (fun c => length (ca_hash c) = 32%nat).
Proof.
  intros a PR. unfold export_seg. eapply sat_bind; [apply sat_may_fail|]. intros _ _.
  eapply sat_bind; [apply sat_read|]. intros b LB. cbn beta in LB.
  eapply sat_bind; [apply sat_send|].
  - discriminate.
  - destruct PR as (_ & LS & _ & _ & _ & _ & P0 & L0 & LE). lia.
  - intros _ _. apply sat_ret. apply DG.
Qed.

Lemma sat_load_bootrec : sat store (load_bootrec E (v_boot v))
  (fun br => length (e_benc E br) = 1024%nat /\ v_boot v = caddr_of E (e_benc E br) CT_BOOTREC).
Proof.
  unfold load_bootrec. eapply sat_bind; [apply sat_may_fail|]. intros _ _.
  apply sat_get. intros s HI. destruct (negb (r_refs (s_repo s) (v_boot v))); [split; cbn; auto|].
  pose proof HI as ((_ & _ & HB) & _). rewrite HB. revert s HI HB.
  match goal with |- forall s, store _ _ -> _ -> store (s_repo (snd (?m s))) _ /\ _ =>
    enough (SA : sat store m (fun br => length (e_benc E br) = 1024%nat /\ v_boot v = caddr_of E (e_benc E br) CT_BOOTREC))
      by (intros s HI _; apply SA; auto) end.
  eapply sat_bind; [apply sat_may_fail|]. intros _ _.
  destruct (r_blobs R (ca_hash (v_boot v))) as [e|] eqn:BE; [|apply sat_fail].
  destruct (Z.of_nat (length e) <? BOOTREC_SIZE) eqn:L; [apply sat_fail|].
  change (Z.to_nat BOOTREC_SIZE) with 1024%nat.
  destruct (caddr_eqb (v_boot v) (caddr_of E (firstn 1024 e) CT_BOOTREC)) eqn:C; cbn [negb]; [|apply sat_fail].
  apply caddr_eqb_eq in C.
  destruct (e_bdec E (firstn 1024 e)) as [br|] eqn:BD; [|apply sat_fail].
  apply sat_ret. rewrite (BS e br BE BD). split; auto. rewrite firstn_length. unfold BOOTREC_SIZE in L. lia.
Qed.

Lemma sat_export_boot : sat store (export_boot E v) (fun c => length (ca_hash c) = 32%nat).
Proof.
  unfold export_boot. destruct (negb (ca_type (v_boot v) =? CT_BOOTREC)); [apply sat_abort|].
  eapply sat_bind; [apply sat_load_bootrec|]. intros br (L & C).
  eapply sat_bind; [rewrite C; apply sat_send; [discriminate|lia]|]. intros _ _. apply sat_ret. rewrite C. apply DG.
Qed.

Lemma sat_export_laddr : forall a, proper a \/ (is_bootrec a = true /\ length (ls_lvid (la_lsid a)) = 16%nat) ->
  sat store (export_laddr E v a) (fun _ => True).
Proof.
  intros a H. unfold export_laddr. eapply sat_bind; [apply sat_may_fail|]. intros _ _.
  eapply sat_bind with (V := fun c => length (ca_hash c) = 32%nat).
  - destruct (is_bootrec a) eqn:B; [apply sat_export_boot|].
    destruct H as [H|(H & _)]; [apply sat_export_seg; auto|discriminate].
  - intros c HC s (HI & HD). split; [|exact Logic.I]. split; [exact HI|]. constructor; [|exact HD].
    unfold dshape, desc_htox, caddr64b_htox. cbn [d_caddr d_laddr].
    rewrite !app_length, le_enc_length, !repeat_length, HC, laddr48b_length; [reflexivity|].
    destruct H as [H|(_ & H)]; auto. apply H.
Qed.

Lemma sat_export_all : forall l, Forall proper l -> sat store (export_all E v l) (fun _ => True).
Proof.
  induction l as [|a l IH]; intros F; cbn [export_all]; [apply sat_ret; auto|].
  inversion F; subst. eapply sat_bind; [apply sat_export_laddr; auto|]. intros _ _. auto.
Qed.

Lemma lmap_append_proper : forall m a, Forall proper m -> proper a -> Forall proper (lmap_append m a).
Proof.
  intros m a FM PA. unfold lmap_append. destruct (laddr_isnull a); auto.
  destruct m as [|p q]; [constructor; auto|]. inversion FM; subst.
  destruct (laddr_isnext p a) eqn:N; [|constructor; auto]. constructor; auto.
  unfold laddr_isnext in N. apply andb_true_iff in N. destruct N as (N & NE).
  apply andb_true_iff in N. destruct N as (N & N3).
  apply andb_true_iff in N. destruct N as (N1 & N2).
  apply Z.eqb_eq in N2. apply lsid_eqb_eq in NE. unfold la_end in N2.
  match goal with H : proper p |- _ => destruct H as (A1 & A2 & A3 & A4 & A5 & A6 & A7 & A8 & A9) end.
  destruct PA as (B1 & B2 & B3 & B4 & B5 & B6 & B7 & B8 & B9).
  unfold proper; cbn. rewrite NE in *. intuition lia.
Qed.
Lemma lmap_proper : forall l, Forall proper l -> Forall proper (lmap_of l).
Proof.
  intros l F. unfold lmap_of. apply Forall_rev.
  assert (G : forall l m, Forall proper m -> Forall proper l -> Forall proper (fold_left lmap_append l m)).
  { clear. induction l as [|a l IH]; intros m FM FL; cbn [fold_left]; auto.
    inversion FL; subst. apply IH; auto. apply lmap_append_proper; auto. }
  apply G; auto.
Qed.

Lemma sat_require : forall l, sat store (require_lseg l) (fun _ => True).
Proof.
  intros l. unfold require_lseg. eapply sat_or_noent; [apply sat_stat| |].
  - eapply sat_bind; [apply sat_open|]. intros a _. apply sat_ret; auto.
  - unfold spawn_lseg. eapply sat_bind; [apply sat_may_fail|]. intros _ _.
    apply sat_get. intros s HI. destruct (r_segs (s_repo s) l); split; cbn -[upd_seg]; auto.
Qed.
Lemma sat_stage : forall lk, sat store (stage_bytes lk) (fun _ => True).
Proof.
  intros lk. unfold stage_bytes. eapply sat_bind; [apply sat_require|]. intros _ _.
  eapply sat_bind; [apply sat_open|]. intros _ _. eapply sat_weak; [apply sat_read|auto].
Qed.

Lemma sat_walk_slots : forall (f : link -> M unit) sl, (forall c, sat store (f c) (fun _ => True)) ->
  sat store (walk_slots f sl) (fun _ => True).
Proof.
  intros f sl H. induction sl as [|[lk|] sl IH]; cbn [walk_slots]; [apply sat_ret; auto| |apply sat_ret; auto].
  intros s HI. destruct (H lk s HI) as (H1 & _).
  destruct (f lk s) as [[x|e|] s']; cbn [fst snd] in *; [apply IH; auto| |split; auto].
  destruct e; [apply IH; auto|..]; split; cbn; auto.
Qed.

Lemma sat_walk_node : forall h lk, sat store (walk_node E (inspect_hook E v) h lk) (fun _ => True).
Proof.
  induction h as [|h IH]; intros lk; cbn [walk_node].
  - eapply sat_bind with (V := fun sl => exists b, e_leaf E lk b = Some sl).
    + unfold stage_leaf. eapply sat_bind; [apply sat_stage|]. intros b _.
      unfold of_opt. destruct (e_leaf E lk b) eqn:L; [apply sat_ret; eauto|apply sat_fail].
    + intros sl (b & L). cbn [inspect_hook]. apply sat_export_all. apply lmap_proper.
      rewrite Forall_map, Forall_forall. intros x IN. apply filter_In in IN. destruct IN as (IN & U).
      eapply (ty_leaf _ _ TY); eauto. lia.
  - eapply sat_bind with (V := fun sl => exists b, e_node E (S h) lk b = Some sl).
    + unfold stage_node. eapply sat_bind; [apply sat_stage|]. intros b _.
      unfold of_opt. destruct (e_node E (S h) lk b) eqn:L; [apply sat_ret; eauto|apply sat_fail].
    + intros sl (b & L). eapply sat_bind; [apply sat_walk_slots; auto|]. intros _ _.
      cbn [inspect_hook]. apply sat_export_all. apply lmap_proper.
      rewrite Forall_forall. intros a IN. apply in_flat_map in IN.
      destruct IN as (o & O1 & O2). destruct o as [c|]; [|destruct O2].
      destruct O2 as [<-|[]]. eapply (ty_node _ _ TY); eauto.
Qed.

Lemma sat_walk_spaces : forall roots, sat store (walk_spaces E (inspect_hook E v) roots) (fun _ => True).
Proof.
  induction roots as [|o q IH]; cbn [walk_spaces]; [apply sat_ret; auto|].
  eapply sat_bind with (V := fun _ => True); [|auto].
  unfold walk_tree. eapply sat_bind with (V := fun _ => True).
  - destruct o as [lk|]; [|apply sat_ret; auto].
    eapply sat_or_noent; [apply sat_walk_node|apply sat_ret; auto|apply sat_ret; auto].
  - intros _ _. cbn [inspect_hook]. apply sat_ret; auto.
Qed.

Lemma sat_export_fs : sat store (export_fs E v) (fun _ => True).
Proof.
  unfold export_fs. eapply sat_bind; [apply sat_walk_spaces|]. intros _ _.
  eapply sat_bind; [apply sat_export_all|].
  - rewrite Forall_forall. intros a IN. apply in_flat_map in IN.
    destruct IN as (o & O1 & O2). destruct o as [c|]; [|destruct O2].
    destruct O2 as [<-|[]]. apply (ty_root _ _ TY); auto.
  - intros _ _. eapply sat_bind; [apply sat_export_laddr; left; apply (ty_super _ _ TY)|]. intros _ _.
    apply sat_export_laddr. right. split; [reflexivity|]. apply (ty_super _ _ TY).
Qed.

Lemma index_length' : forall ds, Forall dshape ds ->
  let sz := index_size (Z.of_nat (length ds)) in Z.of_nat (length (index_bytes E ds sz)) = sz.
Proof.
  intros ds F sz. destruct (index_size_facts (Z.of_nat (length ds)) ltac:(lia)) as (A & B). fold sz in A, B.
  assert (L : length (concat (map desc_htox ds)) = (256 * length ds)%nat).
  { clear - F. induction F as [|d ds H F IH]; cbn [map concat length]; auto.
    rewrite app_length, H, IH. lia. }
  unfold index_bytes, index_area. rewrite !app_length, hdr_head_length, le_enc_length, L, repeat_length.
  unfold HDR_SIZE, DSC_SIZE in *. lia.
Qed.

(* the digest of the index this run made is that of another index in the store *)
Definition index_clash (s : st) : Prop :=
  let y := index_bytes E (s_descs s) (index_size (Z.of_nat (length (s_descs s)))) in
  exists x, r_packs R (caddr_of E y CT_PACKIDX) = Some x /\ x <> y /\
            length x = length y /\ e_hash E x = e_hash E y.

Lemma fs_pack_store : forall f d, packs_ok E R ->
  let s' := snd (fs_pack E v (mkSt R f d)) in
  packs_ok E (s_repo s') \/ index_clash s'.
Proof.
  intros f d PO. cbv zeta.
  enough (HG : forall s', snd (fs_pack E v (mkSt R f d)) = s' -> packs_ok E (s_repo s') \/ index_clash s')
    by (apply HG; reflexivity).
  intros s'. unfold fs_pack. unfold bind at 1. cbn [s_repo s_fates].
  assert (S0 : store R []) by (split; [split; [auto|split; auto]|constructor]).
  destruct (sat_export_fs (mkSt R f []) S0) as (S1 & _).
  unfold bind at 1. destruct (export_fs E v (mkSt R f [])) as [[u|e|] s]; cbn [fst snd] in *; [|intros <-; left; apply S1|intros <-; left; apply S1].
  unfold export_index. set (ds := s_descs s) in *. set (sz := index_size (Z.of_nat (length ds))).
  destruct (index_size_ok sz) eqn:OK; cbn [negb]; [|intros <-; left; apply S1].
  cbv zeta. set (b := index_bytes E ds sz). set (c := caddr_of E b CT_PACKIDX).
  destruct S1 as ((P & X & B) & SH).
  assert (LB : Z.of_nat (length b) = sz) by (apply index_length'; exact SH).
  assert (L32 : 0 <= sz < 2 ^ 32) by (unfold index_size_ok, PAR_INDEX_MIN, PAR_INDEX_MAX, LBK_SIZE in OK; lia).
  assert (SZ : ca_size c = Z.of_nat (length b)) by (apply u32_id; lia).
  assert (K : forall n, packs_ok E (upd_pack (s_repo s) c (overwrite (firstn n b) (contents (r_packs (s_repo s) c)))) \/
     exists x, r_packs R c = Some x /\ x <> b /\ length x = length b /\ e_hash E x = e_hash E b).
  { intros n.
    assert (OL : (length (contents (r_packs (s_repo s) c)) <= length b)%nat /\
       (length (contents (r_packs (s_repo s) c)) = length b ->
          contents (r_packs (s_repo s) c) = b \/
          exists x, r_packs R c = Some x /\ x <> b /\ length x = length b /\ e_hash E x = e_hash E b)).
    { destruct (r_packs (s_repo s) c) as [e|] eqn:PK; cbn [contents].
      - destruct (P c e PK) as (Q & Q2). split; [lia|]. intros LE.
        destruct (list_eq_dec Z.eq_dec e b) as [->|NE]; [left; auto|]. right.
        exists e. split; [rewrite <- X by reflexivity; auto|]. split; auto. split; auto. rewrite Q2 by lia. reflexivity.
      - split; [cbn; lia|]. intros LE. left. symmetry. apply length_zero_iff_nil. auto. }
    destruct OL as (O1 & O2).
    assert (OT : forall w, Z.of_nat (length w) <= ca_size c -> (Z.of_nat (length w) = ca_size c -> e_hash E w = ca_hash c) ->
                 packs_ok E (upd_pack (s_repo s) c w)).
    { intros w W1 W2 c' e H. destruct (caddr_dec c' c) as [->|N].
      - rewrite upd_pack_same in H. inversion H; subst e. auto.
      - rewrite upd_pack_other in H by auto. auto. }
    destruct (Nat.le_gt_cases (length b) n) as [G|G].
    - left. apply OT; rewrite firstn_all2, overwrite_short by auto; [lia|reflexivity].
    - destruct (Nat.eq_dec (length (contents (r_packs (s_repo s) c))) (length b)) as [EQ|NE].
      + destruct (O2 EQ) as [O3|O3]; [|right; auto]. left. rewrite O3.
        assert (OW : overwrite (firstn n b) b = b).
        { unfold overwrite. rewrite firstn_length, Nat.min_l by lia. apply firstn_skipn. }
        apply OT; rewrite OW; [lia|reflexivity].
      + left. apply OT; rewrite overwrite_length, firstn_length; [lia|]. intros LL. exfalso. lia. }
  pose proof (K (length b)) as KA. rewrite firstn_all in KA.
  unfold bind, may_fail, save_pack, next_fate. destruct s as [r f0 d0].
  cbn [s_repo s_fates s_descs] in *.
  destruct f0 as [|[|n] f0]; cbn [s_repo s_fates s_descs fst snd]; [intros <-; exact KA| |intros <-; left; exact P].
  destruct f0 as [|[|m] f0]; cbn [s_repo s_fates s_descs fst snd]; [intros <-; exact KA| |intros <-; left; exact P].
  destruct f0 as [|[|k] f0]; cbn [s_repo s_fates s_descs fst snd ret]; [intros <-; exact KA|intros <-; exact KA|intros <-; apply K].
Qed.
End Store.
