From Verif Require Import Base SymlinkModel.

(* the value v, cut in pieces of the given lengths, is held by the nodes of tail *)
Fixpoint parts_rep (st : store) (tail : list (option Z)) (v : bytes) (lens : list Z) {struct lens} : Prop :=
  match lens with
  | [] => v = []
  | n :: lens' =>
    match tail with
    | Some a :: tail' => 0 <= n <= zlen v /\ (exists x, st a = Some x /\ ztake n x = ztake n v) /\
                         parts_rep st tail' (zdrop n v) lens'
    | _ => False
    end
  end.

Definition rep (st : store) (l : lnk) (t : bytes) : Prop :=
  l_size l = zlen t /\
  exists h ps, desc_setup (zlen t) = Some (h, ps) /\ 0 <= h <= zlen t /\
    ztake h (l_head l) = ztake h t /\ parts_rep st (l_tail l) (zdrop h t) ps.

Lemma buf_append_take : forall cap buf d, zlen buf <= cap ->
  buf_append cap buf d = buf ++ ztake (cap - zlen buf) d.
Proof.
  intros cap buf d H. unfold buf_append. f_equal.
  destruct (Z_le_gt_dec (zlen d) (cap - zlen buf)).
  - rewrite !ztake_all; auto; lia.
  - f_equal. lia.
Qed.

Lemma extern_parts_rep : forall lens st tail v cap buf,
  parts_rep st tail v lens -> zlen buf <= cap ->
  extern_parts st tail lens cap buf = RlOk (buf ++ ztake (cap - zlen buf) v).
Proof.
  induction lens as [|n lens IH]; intros st tail v cap buf H Hb; cbn [extern_parts parts_rep] in *.
  - subst v. unfold ztake. rewrite firstn_nil, app_nil_r. reflexivity.
  - destruct tail as [|[a|] tail]; try contradiction.
    destruct H as (Hn & (x & Ex & Et) & H). rewrite Ex, Et.
    rewrite buf_append_take by lia.
    rewrite (IH _ _ (zdrop n v)); auto.
    + f_equal. rewrite <- app_assoc. f_equal.
      pose proof (zlen_nonneg _ buf).
      rewrite ztake_ztake, zlen_app, zlen_ztake by lia.
      destruct (Z_le_gt_dec n (cap - zlen buf)).
      * replace (Z.min (cap - zlen buf) n) with n by lia.
        rewrite (ztake_split _ n (cap - zlen buf) v) by lia. f_equal. f_equal. lia.
      * replace (Z.min (cap - zlen buf) n) with (cap - zlen buf) by lia.
        rewrite (ztake_0 _ _ (zdrop n v)) by lia. apply app_nil_r.
    + pose proof (zlen_nonneg _ buf). rewrite zlen_app, zlen_ztake by lia. lia.
Qed.

Lemma readlink_rep : forall st l t lim, rep st l t -> 0 <= lim ->
  readlink st l lim = RlOk (ztake lim t).
Proof.
  intros st l t lim (Hs & h & ps & Hd & Hh & Hhd & Hp) Hlim. unfold readlink.
  rewrite Hs, Hd, Hhd. rewrite buf_append_take by (rewrite zlen_nil; lia).
  rewrite zlen_nil, Z.sub_0_r. cbn [app].
  rewrite (extern_parts_rep _ _ _ (zdrop h t)); auto.
  - f_equal. rewrite ztake_ztake, zlen_ztake by lia.
    destruct (Z_le_gt_dec h lim).
    + replace (Z.min lim h) with h by lia.
      rewrite (ztake_split _ h lim t) by lia. f_equal. f_equal. lia.
    + replace (Z.min lim h) with lim by lia.
      rewrite (ztake_0 _ _ (zdrop h t)) by lia. apply app_nil_r.
  - rewrite !zlen_ztake by lia. lia.
Qed.

Lemma part_lens_ok : forall n rem, rem <= Z.of_nat n * PART_MAX ->
  exists ps, part_lens n rem = Some ps /\ (length ps <= n)%nat.
Proof.
  induction n as [|n IH]; intros rem H; cbn [part_lens].
  - destruct (rem <=? 0) eqn:E; [exists []; auto|]. lia.
  - destruct (rem <=? 0) eqn:E; [exists []; split; [auto|cbn; lia]|]. cbv zeta.
    destruct (IH (rem - Z.min rem PART_MAX)) as (ps & E1 & E2).
    { unfold PART_MAX in *. lia. }
    rewrite E1. cbn [option_map]. eexists. split; [reflexivity|]. cbn [length]. lia.
Qed.

(* what the loop of assign_parts does *)
Lemma assign_parts_spec : forall lens st l slot val orc n,
  part_lens n (zlen val) = Some lens ->
  (slot + length lens <= length (l_tail l))%nat ->
  NoDup (filter (fun o => match o with Some _ => true | None => false end) orc) ->
  exists addrs st', 
    firstn (length addrs) orc = map Some addrs /\ (length addrs <= length lens)%nat /\
    let tail' := firstn slot (l_tail l) ++ map Some addrs ++ skipn (slot + length addrs) (l_tail l) in
    assign_parts st l slot val lens orc =
      (st', mkLnk (l_head l) tail' (l_size l), (length addrs =? length lens)%nat) /\
    (forall a, ~ In a addrs -> st' a = st a) /\
    (forall a, In a addrs -> st' a <> None) /\
    (length addrs = length lens -> forall more, parts_rep st' (map Some addrs ++ more) val lens) /\
    ((length addrs < length lens)%nat -> nth (length addrs) orc None = None).
Proof.
  induction lens as [|m lens IH]; intros st l slot val orc n Hp Hs Hnd.
  - exists [], st. cbn [length firstn map app assign_parts]. rewrite Nat.add_0_r, firstn_skipn.
    split; auto. split; auto. split; [destruct l; reflexivity|]. split; auto.
    split; [intros ? []|]. split; [|lia]. intros _ more. cbn [parts_rep].
    apply zlen_0_nil. destruct n; cbn [part_lens] in Hp; destruct (zlen val <=? 0) eqn:E;
      pose proof (zlen_nonneg _ val); try lia; try discriminate.
    cbv zeta in Hp. destruct (part_lens n _); discriminate.
  - assert (Hn : exists n', n = S n' /\ 0 < zlen val /\ m = Z.min (zlen val) PART_MAX /\
        part_lens n' (zlen val - m) = Some lens).
    { destruct n as [|n']; cbn [part_lens] in Hp.
      - destruct (zlen val <=? 0); discriminate.
      - exists n'. destruct (zlen val <=? 0) eqn:E; [discriminate|]. cbv zeta in Hp.
        destruct (part_lens n' (zlen val - Z.min (zlen val) PART_MAX)) eqn:E1; [|discriminate].
        cbn [option_map] in Hp. inversion Hp; subst. split; [reflexivity|]. split; [lia|].
        split; [reflexivity|]. exact E1. }
    destruct Hn as (n' & -> & Hpos & Hm & Hp').
    cbn [length] in Hs. cbn [assign_parts].
    destruct orc as [|[a|] orc].
    + exists [], st. cbn [length map app firstn Nat.eqb]. rewrite Nat.add_0_r, firstn_skipn.
      split; auto. split; [lia|]. split; [destruct l; reflexivity|]. split; auto.
      split; [intros ? []|]. split; [lia|]. auto.
    + cbv zeta.
      set (st1 := fset st a (Some (zput (zrepeat 0 PART_MAX) 0 (ztake m val)))).
      set (l1 := mkLnk (l_head l) (upd (l_tail l) slot (Some a)) (l_size l)).
      cbn [filter] in Hnd. inversion Hnd as [|? ? Hnin Hnd']; subst.
      assert (Hmr : 0 <= Z.min (zlen val) PART_MAX <= PART_MAX).
      { unfold PART_MAX. pose proof (zlen_nonneg _ val). lia. }
      destruct (IH st1 l1 (S slot) (zdrop (Z.min (zlen val) PART_MAX) val) orc n')
        as (addrs & st' & E1 & E2 & E3 & E4 & E5 & E6 & E7).
      * rewrite zlen_zdrop by lia.
        replace (Z.max 0 (zlen val - Z.min (zlen val) PART_MAX)) with
          (zlen val - Z.min (zlen val) PART_MAX) by lia. exact Hp'.
      * unfold l1. cbn [l_tail]. rewrite upd_length. lia.
      * exact Hnd'.
      * assert (Hna : ~ In a addrs).
        { intros Hin. apply Hnin. apply filter_In. split; [|reflexivity].
          assert (Hx : In (Some a) (firstn (length addrs) orc)) by (rewrite E1; apply in_map; auto).
          rewrite <- (firstn_skipn (length addrs) orc). apply in_or_app. auto. }
        exists (a :: addrs), st'. cbv zeta in E3. cbv zeta.
        split; [cbn [length firstn map]; rewrite E1; reflexivity|].
        split; [cbn [length]; lia|].
        split.
        { rewrite E3. unfold l1. cbn [l_head l_tail l_size length Nat.eqb]. f_equal. f_equal. f_equal.
          rewrite upd_split by lia.
          assert (L1 : length (firstn slot (l_tail l)) = slot) by (rewrite firstn_length; lia).
          assert (F1 : firstn (S slot) (firstn slot (l_tail l) ++ Some a :: skipn (S slot) (l_tail l))
                     = firstn slot (l_tail l) ++ [Some a]).
          { rewrite firstn_app, L1. replace (S slot - slot)%nat with 1%nat by lia.
            rewrite firstn_all2 by lia. reflexivity. }
          rewrite F1. rewrite <- app_assoc. f_equal. cbn [map app]. f_equal. f_equal.
          rewrite skipn_app, L1, skipn_all2 by lia. cbn [app].
          replace (S slot + length addrs - slot)%nat with (S (length addrs)) by lia.
          change (skipn (S (length addrs)) (Some a :: skipn (S slot) (l_tail l))) with
            (skipn (length addrs) (skipn (S slot) (l_tail l))).
          rewrite skipn_skipn'. f_equal. lia. }
        split.
        { intros b Hb. cbn [In] in Hb. rewrite E4 by tauto. unfold st1. apply fset_other. intuition. }
        split.
        { intros b [Hb|Hb]; [subst b|apply E5; auto].
          rewrite E4 by auto. unfold st1. rewrite fset_same. discriminate. }
        split; [|cbn [length nth]; intros; apply E7; lia].
        intros Hl more. cbn [length] in Hl. cbn [map app parts_rep].
        split; [lia|]. split; [|apply E6; lia].
        exists (zput (zrepeat 0 PART_MAX) 0 (ztake (Z.min (zlen val) PART_MAX) val)).
        split; [rewrite E4 by auto; unfold st1; apply fset_same|].
        unfold zput. rewrite (ztake_0 _ 0) by lia. cbn [app].
        rewrite ztake_app_l by (rewrite zlen_ztake; lia).
        apply ztake_all. rewrite zlen_ztake; lia.
    + exists [], st. cbn [length map app firstn Nat.eqb]. rewrite Nat.add_0_r, firstn_skipn.
      split; auto. split; [lia|]. split; [destruct l; reflexivity|]. split; auto.
      split; [intros ? []|]. split; [lia|]. auto.
Qed.

(* ---------- invariant ---------- *)

Definition tail_wf (st : store) (l : lnk) (addrs : list Z) : Prop :=
  (exists k, l_tail l = map Some addrs ++ repeat None k) /\ forall a, In a addrs -> st a <> None.

Definition Inv (w : world) (g : Z -> option bytes) : Prop :=
  exists owns : Z -> list Z,
  (forall ino, w_links w ino = None -> g ino = None) /\
  (forall ino l, w_links w ino = Some l ->
     tail_wf (w_store w) l (owns ino) /\ exists t, g ino = Some t /\ rep (w_store w) l t) /\
  (forall i j li lj a, w_links w i = Some li -> w_links w j = Some lj ->
     In a (owns i) -> In a (owns j) -> i = j).

Lemma parts_rep_agree : forall lens st st' addrs more v,
  (forall a, In a addrs -> st' a = st a) -> (length lens <= length addrs)%nat ->
  parts_rep st (map Some addrs ++ more) v lens -> parts_rep st' (map Some addrs ++ more) v lens.
Proof.
  induction lens as [|n lens IH]; intros st st' addrs more v Ha Hl H; cbn [parts_rep] in *; auto.
  destruct addrs as [|a addrs]; [cbn [length] in Hl; lia|]. cbn [map app] in *.
  destruct H as (H1 & H2 & H3). split; auto. split.
  - rewrite Ha by (left; auto). auto.
  - apply (IH st); auto; [intros b Hb; apply Ha; right; auto|cbn [length] in Hl; lia].
Qed.

Lemma parts_rep_len : forall lens st addrs k v,
  parts_rep st (map Some addrs ++ repeat None k) v lens -> (length lens <= length addrs)%nat.
Proof.
  induction lens as [|n lens IH]; intros st addrs k v H; cbn [parts_rep length] in *; [lia|].
  destruct addrs as [|a addrs]; cbn [map app] in H.
  - destruct k; contradiction.
  - destruct H as (_ & _ & H). apply IH in H. cbn [length]. lia.
Qed.

Lemma rep_agree : forall st st' l t addrs,
  tail_wf st l addrs -> (forall a, In a addrs -> st' a = st a) -> rep st l t ->
  tail_wf st' l addrs /\ rep st' l t.
Proof.
  intros st st' l t addrs [[k Hk] Hn] Ha (Hs & h & ps & Hd & Hh & Hhd & Hp).
  split.
  - split; [exists k; auto|]. intros a Hin. rewrite Ha; auto.
  - split; auto. exists h, ps. repeat (split; auto). rewrite Hk in *.
    apply (parts_rep_agree ps st); auto. eapply parts_rep_len; eauto.
Qed.

Lemma drop_parts_spec : forall addrs st k a,
  drop_parts st (map Some addrs ++ repeat None k) a = if existsb (Z.eqb a) addrs then None else st a.
Proof.
  induction addrs as [|b addrs IH]; intros st k a; cbn [map app drop_parts existsb].
  - destruct k; reflexivity.
  - rewrite IH. destruct (existsb (Z.eqb a) addrs); [rewrite orb_true_r; auto|].
    rewrite orb_false_r. unfold fset. destruct (a =? b); reflexivity.
Qed.

Lemma bind_symval_spec : forall st val orc,
  0 < zlen val <= SYMLNK_MAX ->
  NoDup (filter (fun o => match o with Some _ => true | None => false end) orc) ->
  exists addrs st' l,
    firstn (length addrs) orc = map Some addrs /\
    bind_symval st lnk_setup val orc = (st', l) /\
    tail_wf st' l addrs /\ (forall a, ~ In a addrs -> st' a = st a) /\
    ((zlen val <= HEAD_MAX /\ addrs = [] /\ rep st' l val) \/
     (HEAD_MAX < zlen val /\ length addrs = 1%nat /\ rep st' l val) \/
     (HEAD_MAX < zlen val /\ addrs = [] /\ nth 0 orc None = None /\ rep st' l [])).
Proof.
  intros st val orc Hv Hnd. unfold bind_symval, desc_setup.
  set (h := Z.min (zlen val) HEAD_MAX).
  assert (Hh : 0 <= h <= HEAD_MAX) by (unfold h, HEAD_MAX; lia).
  assert (Hps : exists ps, part_lens NPARTS (zlen val - h) = Some ps /\
     ((zlen val <= HEAD_MAX /\ length ps = 0%nat) \/ (HEAD_MAX < zlen val /\ length ps = 1%nat))).
  { unfold h, SYMLNK_MAX, HEAD_MAX, NPARTS in *. cbn [part_lens].
    destruct (zlen val - Z.min (zlen val) 480 <=? 0) eqn:E.
    - exists []. split; auto. left. split; [lia|auto].
    - cbv zeta.
      replace (zlen val - Z.min (zlen val) 480 - Z.min (zlen val - Z.min (zlen val) 480) PART_MAX <=? 0)
        with true by (unfold PART_MAX; lia).
      cbn [option_map]. eexists. split; [reflexivity|]. right. split; [lia|auto]. }
  destruct Hps as (ps & Eps & Hlen). rewrite Eps. cbn [option_map].
  assert (Lps : (length ps <= 2)%nat) by lia.
  set (l1 := mkLnk (zput (l_head lnk_setup) 0 (ztake h val)) (l_tail lnk_setup) (l_size lnk_setup)).
  destruct (assign_parts_spec ps st l1 0 (zdrop h val) orc NPARTS) as
    (addrs & st' & E1 & E2 & E3 & E4 & E5 & E6 & E7).
  { rewrite zlen_zdrop by lia. replace (Z.max 0 (zlen val - h)) with (zlen val - h) by (unfold h; lia). auto. }
  { change (l_tail l1) with [@None Z; None]. cbn [length]. lia. }
  { exact Hnd. }
  cbv zeta in E3. cbn [firstn app Nat.add] in E3. rewrite E3.
  assert (Tl : exists k, map Some addrs ++ skipn (length addrs) (l_tail l1) = map Some addrs ++ repeat None k).
  { change (l_tail l1) with [@None Z; None]. exists (2 - length addrs)%nat. f_equal.
    destruct addrs as [|x [|y [|z r]]]; try reflexivity. }
  assert (Hhead : ztake h (l_head l1) = ztake h val).
  { unfold l1. cbn [l_head]. unfold zput. rewrite (ztake_0 _ 0) by lia. cbn [app].
    rewrite ztake_app_l by (rewrite zlen_ztake; unfold h; lia).
    apply ztake_all. rewrite zlen_ztake by lia. lia. }
  assert (Full : length addrs = length ps ->
    rep st' (mkLnk (l_head l1) (map Some addrs ++ skipn (length addrs) (l_tail l1)) (zlen val)) val).
  { intros Hl. split; [reflexivity|]. exists h, ps. unfold desc_setup. fold h. rewrite Eps.
    split; [reflexivity|]. split; [unfold h; lia|]. split; [exact Hhead|]. cbn [l_tail]. apply E6. auto. }
  destruct (length addrs =? length ps)%nat eqn:El.
  - apply Nat.eqb_eq in El. exists addrs, st'. eexists. split; [auto|]. split; [reflexivity|].
    split; [split; [exact Tl|auto]|]. split; [exact E4|].
    destruct Hlen as [[A B]|[A B]].
    + left. split; [auto|]. split; [destruct addrs; [auto|cbn [length] in *; lia]|]. apply Full; auto.
    + right. left. split; [auto|]. split; [lia|]. apply Full; auto.
  - apply Nat.eqb_neq in El. exists addrs, st'. eexists. split; [auto|]. split; [reflexivity|].
    split; [split; [exact Tl|auto]|]. split; [exact E4|].
    destruct Hlen as [[A B]|[A B]]; [lia|]. right. right.
    assert (Hnil : addrs = []) by (destruct addrs; [auto|cbn [length] in *; lia]).
    split; [auto|]. split; [auto|]. subst addrs. cbn [length] in E7.
    split; [apply E7; lia|].
    split; [reflexivity|]. exists 0, []. repeat split; auto; rewrite ?zlen_nil; try lia.
Qed.
