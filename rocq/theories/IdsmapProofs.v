From Verif Require Import Base IdsmapModel.

Lemma populate_htof : forall es t s,
  t_cap (fold_left tab_insert es t) = t_cap t /\
  t_htof (fold_left tab_insert es t) s =
    rev (filter (fun e => fst e mod t_cap t =? s) es) ++ t_htof t s /\
  t_ftoh (fold_left tab_insert es t) s =
    rev (filter (fun e => snd e mod t_cap t =? s) es) ++ t_ftoh t s.
Proof.
  induction es as [|e es IH]; intros t s; [simpl; auto|].
  cbn [fold_left filter]. destruct (IH (tab_insert t e) s) as (A & B & C).
  split; [rewrite A; reflexivity|].
  assert (Hc : t_cap (tab_insert t e) = t_cap t) by reflexivity.
  rewrite Hc in *.
  split.
  - rewrite B. unfold tab_insert, push, slot_of. cbn [t_htof].
    rewrite (Z.eqb_sym s). destruct (fst e mod t_cap t =? s); [|reflexivity].
    cbn [rev]. rewrite <- app_assoc. reflexivity.
  - rewrite C. unfold tab_insert, push, slot_of. cbn [t_ftoh].
    rewrite (Z.eqb_sym s). destruct (snd e mod t_cap t =? s); [|reflexivity].
    cbn [rev]. rewrite <- app_assoc. reflexivity.
Qed.

Lemma lookup_htof_some : forall cap es h e,
  lookup_htof (tab_populate cap es) h = Some e -> In e es /\ fst e = h.
Proof.
  intros cap es h e H. unfold lookup_htof, tab_populate in H.
  destruct (populate_htof es (tab_init cap) (slot_of (fold_left tab_insert es (tab_init cap)) h))
    as (_ & B & _).
  rewrite B in H. apply find_some in H. destruct H as [H1 H2].
  cbn [tab_init t_htof] in H1. rewrite app_nil_r in H1. apply in_rev in H1.
  apply filter_In in H1. split; [tauto|]. lia.
Qed.

Lemma lookup_htof_none : forall cap es h,
  lookup_htof (tab_populate cap es) h = None -> forall f, ~ In (h, f) es.
Proof.
  intros cap es h H f Hin. unfold lookup_htof, tab_populate in H.
  destruct (populate_htof es (tab_init cap) (slot_of (fold_left tab_insert es (tab_init cap)) h))
    as (A & B & _).
  rewrite B in H. eapply find_none in H; [cbn [fst] in H; instantiate (1 := (h, f)) in H; cbn [fst] in H; lia|].
  apply in_or_app. left. apply in_rev. rewrite rev_involutive. apply filter_In.
  split; [exact Hin|]. unfold slot_of. rewrite A. cbn [fst]. lia.
Qed.

Lemma lookup_ftoh_some : forall cap es f e,
  lookup_ftoh (tab_populate cap es) f = Some e -> In e es /\ snd e = f.
Proof.
  intros cap es f e H. unfold lookup_ftoh, tab_populate in H.
  destruct (populate_htof es (tab_init cap) (slot_of (fold_left tab_insert es (tab_init cap)) f))
    as (_ & _ & B).
  rewrite B in H. apply find_some in H. destruct H as [H1 H2].
  cbn [tab_init t_ftoh] in H1. rewrite app_nil_r in H1. apply in_rev in H1.
  apply filter_In in H1. split; [tauto|]. lia.
Qed.

Lemma lookup_ftoh_none : forall cap es f,
  lookup_ftoh (tab_populate cap es) f = None -> forall h, ~ In (h, f) es.
Proof.
  intros cap es f H h Hin. unfold lookup_ftoh, tab_populate in H.
  destruct (populate_htof es (tab_init cap) (slot_of (fold_left tab_insert es (tab_init cap)) f))
    as (A & _ & B).
  rewrite B in H. eapply find_none in H; [instantiate (1 := (h, f)) in H; cbn [snd] in H; lia|].
  apply in_or_app. left. apply in_rev. rewrite rev_involutive. apply filter_In.
  split; [exact Hin|]. unfold slot_of. rewrite A. cbn [snd]. lia.
Qed.
