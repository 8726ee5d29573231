(* C05: identity mapping. *)
From Verif Require Import Base IdsmapModel IdsmapProofs.

(* ---------- specification: a table is a set of (host, fs) pairs ---------- *)

Definition one_to_one (es : list (Z * Z)) : Prop :=
  (forall h f f', In (h, f) es -> In (h, f') es -> f = f') /\
  (forall h h' f, In (h, f) es -> In (h', f) es -> h = h').

(* (uid_t)-1 means "no id" and is never an entry *)
Definition proper (es : list (Z * Z)) : Prop :=
  forall h f, In (h, f) es -> 0 <= h < 2 ^ 32 - 1 /\ 0 <= f < 2 ^ 32 - 1.

Definition host_known (es : list (Z * Z)) (h : Z) : Prop := exists f, In (h, f) es.
Definition fs_known (es : list (Z * Z)) (f : Z) : Prop := exists h, In (h, f) es.

(* What one id becomes. *)
Lemma htof_spec : forall cap es allow h, one_to_one es ->
  (forall f, In (h, f) es -> resolve_htof (tab_populate cap es) allow h = (true, f)) /\
  (~ host_known es h -> resolve_htof (tab_populate cap es) allow h = (allow, h)).
Proof.
  intros cap es allow h [U _]. unfold resolve_htof.
  destruct (lookup_htof (tab_populate cap es) h) as [[h' f']|] eqn:E.
  - apply lookup_htof_some in E. destruct E as [E1 E2]. cbn [fst] in E2. subst h'. cbn [snd].
    split; [intros f Hf; rewrite (U h f f'); auto|]. intros N. destruct N. exists f'. auto.
  - split; [|auto]. intros f Hf. exfalso. exact (lookup_htof_none _ _ _ E f Hf).
Qed.

Lemma ftoh_spec : forall cap es allow f, one_to_one es ->
  (forall h, In (h, f) es -> resolve_ftoh (tab_populate cap es) allow f = (true, h)) /\
  (~ fs_known es f -> resolve_ftoh (tab_populate cap es) allow f = (allow, f)).
Proof.
  intros cap es allow f [_ U]. unfold resolve_ftoh.
  destruct (lookup_ftoh (tab_populate cap es) f) as [[h' f']|] eqn:E.
  - apply lookup_ftoh_some in E. destruct E as [E1 E2]. cbn [snd] in E2. subst f'. cbn [fst].
    split; [intros h Hh; rewrite (U h h' f); auto|]. intros N. destruct N. exists h'. auto.
  - split; [|auto]. intros h Hh. exfalso. exact (lookup_ftoh_none _ _ _ E h Hh).
Qed.

(* Configured users and groups map to their configured partner, and back. *)
Theorem C05_roundtrip : forall cap users groups allow hu hg fu fg,
  one_to_one users -> one_to_one groups -> proper users -> proper groups ->
  In (hu, fu) users -> In (hg, fg) groups ->
  let m := idsmap_load cap users groups allow in
  map_uidgid m hu hg = Some (fu, fg) /\ rmap_uidgid m fu fg = Some (hu, hg).
Proof.
  intros cap users groups allow hu hg fu fg U1 G1 PU PG Iu Ig m.
  destruct (PU _ _ Iu) as [A1 A2]. destruct (PG _ _ Ig) as [B1 B2].
  destruct (htof_spec cap users allow hu U1) as [S1 _].
  destruct (htof_spec cap groups allow hg G1) as [S2 _].
  destruct (ftoh_spec cap users allow fu U1) as [T1 _].
  destruct (ftoh_spec cap groups allow fg G1) as [T2 _].
  unfold map_uidgid, rmap_uidgid, res1, NOID, m, idsmap_load. cbn [im_u im_g im_allow].
  replace (hu =? 2 ^ 32 - 1) with false by lia. replace (hg =? 2 ^ 32 - 1) with false by lia.
  replace (fu =? 2 ^ 32 - 1) with false by lia. replace (fg =? 2 ^ 32 - 1) with false by lia.
  rewrite (S1 _ Iu), (S2 _ Ig), (T1 _ Iu), (T2 _ Ig). auto.
Qed.
Definition ex_users : list (Z * Z) := [(1000, 5); (1509, 6); (0, 0)].
Example C05_roundtrip_ex : one_to_one ex_users /\ proper ex_users /\
  (* 1000 and 1509 share a bin of 509 *)
  map_uidgid (idsmap_load 509 ex_users ex_users false) 1509 1000 = Some (6, 5).
Proof.
  split; [|split; [|reflexivity]].
  - split; unfold ex_users; cbn [In]; intuition congruence.
  - intros h f. unfold ex_users; cbn [In]. intuition; match goal with
      H : (_, _) = (_, _) |- _ => inversion H; subst; lia end.
Qed.
Print Assumptions C05_roundtrip.

(* Without host ids, a user or group that is not configured is refused. *)
Theorem C05_unmapped_refused : forall cap users groups u g,
  one_to_one users -> one_to_one groups ->
  (u <> 2 ^ 32 - 1 /\ ~ host_known users u) \/ (g <> 2 ^ 32 - 1 /\ ~ host_known groups g) ->
  map_uidgid (idsmap_load cap users groups false) u g = None.
Proof.
  intros cap users groups u g U G H.
  unfold map_uidgid, res1, NOID, idsmap_load. cbn [im_u im_g im_allow].
  destruct H as [[N K]|[N K]].
  - replace (u =? 2 ^ 32 - 1) with false by lia.
    destruct (htof_spec cap users false u U) as [_ S]. rewrite (S K).
    destruct (if g =? _ then _ else _). reflexivity.
  - replace (g =? 2 ^ 32 - 1) with false by lia.
    destruct (htof_spec cap groups false g G) as [_ S]. rewrite (S K).
    destruct (if u =? _ then _ else _) as [[] ?]; reflexivity.
Qed.
Example C05_unmapped_refused_ex : ~ host_known ex_users 491 /\
  map_uidgid (idsmap_load 509 ex_users ex_users false) 491 0 = None.
Proof.
  split; [|reflexivity]. unfold host_known, ex_users. cbn [In]. intros [f H]. intuition congruence.
Qed.
Print Assumptions C05_unmapped_refused.

(* Two different (host user, host group) pairs that are accepted are never presented to
   the file system as one, when host ids are not allowed. *)
Theorem C05_no_aliasing : forall cap users groups u1 g1 u2 g2 r,
  one_to_one users -> one_to_one groups -> proper users -> proper groups ->
  let m := idsmap_load cap users groups false in
  map_uidgid m u1 g1 = Some r -> map_uidgid m u2 g2 = Some r -> u1 = u2 /\ g1 = g2.
Proof.
  intros cap users groups u1 g1 u2 g2 r U G PU PG m.
  assert (K : forall es, one_to_one es -> proper es -> forall a b x y,
    res1 resolve_htof (tab_populate cap es) false a = (true, x) ->
    res1 resolve_htof (tab_populate cap es) false b = (true, y) -> x = y -> a = b).
  { intros es O P a b x y. unfold res1, NOID, resolve_htof.
    assert (Q : forall a x, match lookup_htof (tab_populate cap es) a with
        | Some e => (true, snd e) | None => (false, a) end = (true, x) -> In (a, x) es).
    { intros c z. destruct (lookup_htof (tab_populate cap es) c) as [[h f]|] eqn:E; [|discriminate].
      apply lookup_htof_some in E. cbn [fst snd] in *. intros J. inversion J; subst.
      destruct E as [E1 E2]. subst. auto. }
    destruct (a =? 2 ^ 32 - 1) eqn:Ea; destruct (b =? 2 ^ 32 - 1) eqn:Eb; intros Ha Hb Exy.
    - lia.
    - apply Q in Hb. apply P in Hb. inversion Ha; subst. lia.
    - apply Q in Ha. apply P in Ha. inversion Hb; subst. lia.
    - apply Q in Ha. apply Q in Hb. subst y. exact (proj2 O _ _ _ Ha Hb). }
  unfold map_uidgid, m, idsmap_load. cbn [im_u im_g im_allow].
  destruct (res1 resolve_htof (tab_populate cap users) false u1) as [a1 x1] eqn:E1.
  destruct (res1 resolve_htof (tab_populate cap groups) false g1) as [b1 y1] eqn:E2.
  destruct (res1 resolve_htof (tab_populate cap users) false u2) as [a2 x2] eqn:E3.
  destruct (res1 resolve_htof (tab_populate cap groups) false g2) as [b2 y2] eqn:E4.
  destruct a1, b1; try discriminate. destruct a2, b2; try discriminate.
  cbn [andb]. intros R1 R2. inversion R1; subst. inversion R2; subst.
  split; [exact (K users U PU _ _ _ _ E1 E3 ltac:(congruence))|exact (K groups G PG _ _ _ _ E2 E4 ltac:(congruence))].
Qed.
Example C05_no_aliasing_ex :
  map_uidgid (idsmap_load 509 ex_users ex_users false) 1509 0 <>
  map_uidgid (idsmap_load 509 ex_users ex_users false) 1000 0.
Proof. vm_compute. discriminate. Qed.
Print Assumptions C05_no_aliasing.

(* Finding: with host ids allowed an unmapped host user can coincide with the image of
   another one, even though the table itself is one-to-one. *)
Theorem C05_no_aliasing_hostids_refuted :
  exists users u1 u2 r, one_to_one users /\ proper users /\ u1 <> u2 /\
    map_uidgid (idsmap_load 509 users users true) u1 (2 ^ 32 - 1) = Some r /\
    map_uidgid (idsmap_load 509 users users true) u2 (2 ^ 32 - 1) = Some r.
Proof.
  exists [(1000, 0)], 1000, 0, (0, 2 ^ 32 - 1). repeat split; try reflexivity; try lia.
  - intros h f f' [A|[]] [B|[]]. congruence.
  - intros h h' f [A|[]] [B|[]]. congruence.
  - destruct H as [A|[]]. inversion A; lia.
  - destruct H as [A|[]]. inversion A; lia.
  - destruct H as [A|[]]. inversion A; lia.
  - destruct H as [A|[]]. inversion A; lia.
Qed.
Print Assumptions C05_no_aliasing_hostids_refuted.
