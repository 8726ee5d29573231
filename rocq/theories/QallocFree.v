(* Freeing memory: of pages and of elements of slabs, and what a call leaves of the others' memory. *)
From Coq Require Import ZArith List Lia Bool Permutation.
From Coq Require Import ZifyBool.
From Verif Require Import Base QallocModel QallocProofs QallocSlab.
Import ListNotations.
Local Open Scope Z_scope.

Section Free.
Variable c : qconf.
Notation N := (c_npgs c).
Notation Pool := (Pool c).
Notation Inv := (Inv c).

Lemma bind_ok : forall A B (m : Q A) (f : A -> Q B) s s' a, m s = (s', ROk a) -> qbind m f s = f a s'.
Proof. intros A B m f s s' a H. unfold qbind. rewrite H. reflexivity. Qed.
Lemma assert_ok : forall b s, b = true -> qassert b s = (s, ROk tt).
Proof. intros b s ->. reflexivity. Qed.
Lemma page_of_ok : forall a s, a / PG < N -> page_of c a s = (s, ROk (a / PG)).
Proof. intros a s H. unfold page_of. rewrite (bind_ok _ _ _ _ _ s tt); [reflexivity|]. apply assert_ok. apply Z.ltb_lt. exact H. Qed.
Lemma cnt_perm : forall p a b, Permutation a b -> cnt p a = cnt p b.
Proof. intros p a b H. induction H; rewrite ?cnt_cons; lia. Qed.
Lemma cntc_perm : forall p a b, Permutation a b -> cntc p a = cntc p b.
Proof. intros p a b H. induction H; rewrite ?cntc_cons; lia. Qed.
Lemma zsum_perm : forall a b, Permutation a b -> zsum a = zsum b.
Proof. intros a b H. induction H; rewrite ?zsum_cons; lia. Qed.
Lemma inv_perm : forall s U U' L L' h, Permutation U U' -> Permutation L L' -> Inv s U L h -> Inv s U' L' h.
Proof.
  intros s U U' L L' h PU PL I. pose proof (Permutation_sym PU) as PU'. pose proof (Permutation_sym PL) as PL'.
  assert (IU : forall x, In x U' <-> In x U) by (intros x; split; apply Permutation_in; assumption).
  assert (IL : forall x, In x L' <-> In x L) by (intros x; split; apply Permutation_in; assumption).
  assert (IM : forall x, In x (map e_ptr L') <-> In x (map e_ptr L)) by (intros x; split; apply Permutation_in; apply Permutation_map; assumption).
  constructor.
  - exact (pool_perm _ _ _ _ _ (i_pool _ _ _ _ _ I) PU).
  - rewrite (i_use _ _ _ _ _ I). apply multi_perm. exact PU.
  - intros x n H. apply IU in H. destruct (i_run _ _ _ _ _ I x n H) as (e & He & X). exists e. rewrite IL. auto.
  - intros e He Se. rewrite IU. apply IL in He. exact (i_multi _ _ _ _ _ I e He Se).
  - intros p n i H. apply IU in H. rewrite <- (cnt_perm p _ _ PL). exact (i_slab _ _ _ _ _ I p n i H).
  - intros e He Se. rewrite IU. apply IL in He. exact (i_ent _ _ _ _ _ I e He Se).
  - apply (Permutation_NoDup (Permutation_map e_ptr PL)). exact (i_nd _ _ _ _ _ I).
  - exact (i_lnd _ _ _ _ _ I).
  - intros i x Hi. rewrite IU, IM. exact (i_lin _ _ _ _ _ I i x Hi).
  - exact (i_nfree _ _ _ _ _ I).
  - intros i Hi. rewrite <- (cntc_perm i _ _ PL). exact (i_nused _ _ _ _ _ I i Hi).
  - rewrite (i_bytes _ _ _ _ _ I). apply zsum_perm. apply Permutation_map. exact PL.
  - intros e He. apply IL in He. exact (i_pos _ _ _ _ _ I e He).
Qed.
Lemma in_perm : forall (x : chunk) U, In x U -> exists U', Permutation U (x :: U').
Proof. intros x U H. apply in_split in H as (a & b & ->). exists (a ++ b). apply Permutation_sym, Permutation_middle. Qed.

(* freeing pages leaves the bytes of what is still there *)
Lemma keep_pool : forall s U L h m m', Inv s U L h ->
  (forall x, (exists s' n k, In (s', n, k) U /\ s' * PG <= x < (s' + n) * PG) -> m' x = m x) -> Keep L m m'.
Proof.
  intros s U L h m m' I H e o He Ho. apply H. destruct (place _ _ _ _ _ _ I He) as (p & n & k & Hu & Ha & Hb & _).
  exists p, n, k. split; [exact Hu | lia].
Qed.

Lemma free_multi_ok : forall s U L e flags, Inv s U (e :: L) None -> is_slab (e_sz e) = false ->
  exists s' U', free_multi c (e_ptr e) (e_sz e) flags s = (s', ROk tt) /\ q_bytes s' = q_bytes s /\
    Inv (set_bytes s' (q_bytes s' - e_sz e)) U' L None /\ Keep L (q_mem s) (q_mem s').
Proof.
  intros s U L e flags I Sl. destruct (i_multi _ _ _ _ _ I e (or_introl eq_refl) Sl) as [Hm Hu].
  destruct (in_perm _ _ Hu) as (U' & PU). pose proof (inv_perm _ _ _ _ _ _ PU (Permutation_refl _) I) as I'. clear I Hu PU U.
  set (p := e_ptr e / PG) in *. set (n := npgs_of (e_sz e)) in *.
  pose proof (i_pos _ _ _ _ _ I' e (or_introl eq_refl)) as Pz.
  destruct (npgs_facts _ Sl (proj1 Pz)) as (N1 & _). fold n in N1.
  destruct (pool_in _ _ _ _ _ _ _ (i_pool _ _ _ _ _ I') (or_introl eq_refl)) as (P0 & _ & P1 & _ & Pc & Pf).
  assert (Ep : e_ptr e = p * PG) by (unfold p, PG in *; Z.div_mod_to_equations; lia).
  assert (Us : n <= q_use s).
  { rewrite (i_use _ _ _ _ _ I'), multi_cons. enough (0 <= multi U') by lia.
    apply multi_pages. intros a b k H. pose proof (pool_in _ _ _ _ _ _ _ (i_pool _ _ _ _ _ I') (or_intror H)). lia. }
  unfold free_multi, check_by_page, page_of, qbind, qget, qassert, qret, qput. fold n. fold p.
  replace (q_use s <? n) with false by lia. replace (p <? N) with true by lia. rewrite Pf, Pc, Z.eqb_refl. cbn [negb].
  destruct (pool_free c s p n KMulti U' flags (i_pool _ _ _ _ _ I')) as (pg' & l' & mem' & E & P' & Sf & Mm).
  rewrite E. eexists _, U'. split; [reflexivity|]. split; [reflexivity|].
  assert (Disj : forall x i, In (x, 1, KSlab i) U' -> x <> p).
  { intros x i H ->. destruct (pool_disj _ _ _ _ _ _ _ _ _ _ (i_pool _ _ _ _ _ I') (or_introl eq_refl) (or_intror H)) as [Q|[Q|Q]]; [discriminate|lia|lia]. }
  pose proof (i_nd _ _ _ _ _ I') as ND. cbn [map] in ND. inversion ND as [|? ? Ne ND']; subst.
  assert (IV : Inv (set_bytes (set_use (set_list (set_pg (set_mem s mem') pg') l') (q_use s - n)) (q_bytes s - e_sz e)) U' L None).
  { constructor; cbn [set_bytes set_use set_list set_pg set_mem set_slab q_pg q_list q_use q_slab q_bytes q_mem].
    - exact P'.
    - rewrite (i_use _ _ _ _ _ I'), multi_cons. lia.
    - intros x m H. destruct (i_run _ _ _ _ _ I' x m (or_intror H)) as (e' & [<-|He] & X1 & X2 & X3); [|exists e'; auto].
      exfalso. assert (Xp : x = p) by (rewrite Ep in X2; apply (Z.mul_cancel_r x p PG); [discriminate | congruence]).
      pose proof (pool_nodup _ _ _ _ (i_pool _ _ _ _ _ I')) as NU. apply NoDup_cons_iff in NU as [Hx _]. apply Hx.
      rewrite <- Xp at 1. unfold n. rewrite X3. exact H.
    - intros e' He Se. destruct (i_multi _ _ _ _ _ I' e' (or_intror He) Se) as [X1 X2]. split; [exact X1|].
      apply perm_in_cons in X2 as [X2|X2]; [|exact X2]. exfalso. apply Ne.
      replace (e_ptr e) with (e_ptr e'); [apply in_map; exact He|].
      assert (e_ptr e' / PG = p) by congruence. rewrite Ep. unfold PG in *. Z.div_mod_to_equations. lia.
    - intros x m i H. destruct (i_slab _ _ _ _ _ I' x m i (or_intror H)) as (A1 & A2 & A3 & A4 & A5 & A6). subst m.
      destruct (Sf x) as (F1 & F2 & F3). rewrite F1, F2, F3. rewrite cnt_cons in A5, A6. fold p in A5, A6.
      replace (p =? x) with false in A5, A6 by (symmetry; apply Z.eqb_neq; intros Q; exact (Disj x i H (eq_sym Q))).
      rewrite Z.add_0_l in A5, A6. auto 10.
    - intros e' He Se. destruct (i_ent _ _ _ _ _ I' e' (or_intror He) Se) as [X1 X2]. split; [|exact X2].
      apply perm_in_cons in X1 as [X1|X1]; [discriminate | exact X1].
    - exact ND'.
    - exact (i_lnd _ _ _ _ _ I').
    - intros i x Hi. rewrite (i_lin _ _ _ _ _ I' i x Hi), perm_in_cons. cbn [map In]. split.
      + intros ([A1|A1] & A2 & A3); [discriminate|]. tauto.
      + intros (A1 & A2 & A3). split; [right; exact A1|]. split; [exact A2|]. intros [Q|Q]; [|exact (A3 Q)].
        apply (Disj _ _ A1). rewrite <- Q. reflexivity.
    - exact (i_nfree _ _ _ _ _ I').
    - intros i Hi. rewrite (i_nused _ _ _ _ _ I' i Hi), cntc_cons, Sl. cbn [andb]. lia.
    - rewrite (i_bytes _ _ _ _ _ I'). cbn [map]. rewrite zsum_cons. lia.
    - intros e' He. exact (i_pos _ _ _ _ _ I' e' (or_intror He)). }
  split; [exact IV|]. cbn [set_bytes set_use set_list set_pg set_mem q_mem]. exact (keep_pool _ _ _ _ _ _ IV Mm).
Qed.

(* an element goes back to its slab *)
Lemma NoDup_app_intro : forall (a b : list Z), NoDup a -> NoDup b -> (forall x, In x a -> ~ In x b) -> NoDup (a ++ b).
Proof.
  intros a b Ha Hb Hd. induction Ha as [|x a Hx Ha IH]; [exact Hb|]. cbn [app]. constructor.
  - rewrite in_app_iff. intros [H|H]; [exact (Hx H) | exact (Hd x (or_introl eq_refl) H)].
  - apply IH. intros y Hy. apply Hd. right. exact Hy.
Qed.
Definition pushed (s : qst) (i a : Z) (m : Z -> Z) : qst :=
  let sl := q_slab s i in
  let s1 := set_mem (set_slab s i (mkSlab (a :: sl_list sl) (sl_nfree sl + 1) (sl_nused sl - 1))) m in
  set_pg s1 (fset (q_pg s1) (a / PG) (pg_slab (q_pg s1 (a / PG)) (pg_sidx (q_pg s1 (a / PG))) (pg_snused (q_pg s1 (a / PG)) - 1) (pg_snelems (q_pg s1 (a / PG))))).
Lemma pushed_inv : forall s U L e m, Inv s U (e :: L) None -> is_slab (e_sz e) = true ->
  Inv (set_bytes (pushed s (cls e) (e_ptr e) m) (q_bytes s - e_sz e)) U L (Some (e_ptr e / PG)).
Proof.
  intros s U L e m I Sl. pose proof (slab_cls e Sl) as Hi. set (i := cls e) in *. set (a := e_ptr e) in *.
  destruct (i_ent _ _ _ _ _ I e (or_introl eq_refl) Sl) as [Hu Hm]. fold i a in Hu, Hm.
  pose proof (i_nd _ _ _ _ _ I) as ND. cbn [map] in ND. inversion ND as [|? ? Ne ND']; subst. fold a in Ne.
  assert (Na : ~ In a (sl_list (q_slab s i))).
  { intros H. apply (i_lin _ _ _ _ _ I i a Hi) in H as (_ & _ & H). apply H. left. reflexivity. }
  unfold pushed. constructor; cbn [set_bytes set_use set_list set_pg set_mem set_slab q_pg q_list q_use q_slab q_bytes q_mem].
  - apply pool_slab. exact (i_pool _ _ _ _ _ I).
  - exact (i_use _ _ _ _ _ I).
  - intros x n H. destruct (i_run _ _ _ _ _ I x n H) as (e' & [<-|He] & X1 & X2); [congruence|]. exists e'. auto.
  - intros e' He. exact (i_multi _ _ _ _ _ I e' (or_intror He)).
  - intros x n i' H. destruct (i_slab _ _ _ _ _ I x n i' H) as (A1 & A2 & A3 & A4 & A5 & A6). rewrite cnt_cons in A5, A6. fold a in A5, A6.
    unfold fset. destruct (x =? a / PG) eqn:Ex.
    + apply Z.eqb_eq in Ex. subst x. rewrite Z.eqb_refl in *. cbn [pg_slab pg_sidx pg_snused pg_snelems].
      split; [exact A1|]. split; [exact A2|]. split; [exact A3|]. split; [exact A4|].
      split; [rewrite A5; clear; generalize (cnt (a / PG) L); intros; lia | left; reflexivity].
    + apply Z.eqb_neq in Ex. replace (a / PG =? x) with false in A5, A6 by (symmetry; apply Z.eqb_neq; congruence).
      rewrite Z.add_0_l in A5, A6. destruct A6 as [A6|A6]; [discriminate|]. auto 10.
  - intros e' He. exact (i_ent _ _ _ _ _ I e' (or_intror He)).
  - exact ND'.
  - intros i' Hi'. unfold fset. destruct (i' =? i) eqn:Ei; [|exact (i_lnd _ _ _ _ _ I i' Hi')].
    cbn [sl_list]. constructor; [exact Na | exact (i_lnd _ _ _ _ _ I i Hi)].
  - intros i' x Hi'. pose proof (i_lin _ _ _ _ _ I i' x Hi') as Q. cbn [map In] in Q. fold a in Q.
    unfold fset. destruct (i' =? i) eqn:Ei.
    + apply Z.eqb_eq in Ei. subst i'. cbn [sl_list In]. rewrite Q. split.
      * intros [<-|(A1 & A2 & A3)]; [auto|]. split; [exact A1|]. split; [exact A2|]. intros H. apply A3. right. exact H.
      * intros (A1 & A2 & A3). destruct (Z.eq_dec a x) as [Ex|Ex]; [left; exact Ex | right]. split; [exact A1|]. split; [exact A2|].
        intros [H|H]; [exact (Ex H) | exact (A3 H)].
    + apply Z.eqb_neq in Ei. rewrite Q. split; [tauto|]. intros (A1 & A2 & A3). split; [exact A1|]. split; [exact A2|].
      intros [H|H]; [|exact (A3 H)]. subst x.
      destruct (pool_disj _ _ _ _ _ _ _ _ _ _ (i_pool _ _ _ _ _ I) Hu A1) as [D|D]; [apply Ei; congruence | lia].
  - intros i' Hi'. unfold fset. destruct (i' =? i) eqn:Ei; [|exact (i_nfree _ _ _ _ _ I i' Hi')].
    cbn [sl_nfree sl_list]. rewrite zlen_cons, (i_nfree _ _ _ _ _ I i Hi). lia.
  - intros i' Hi'. pose proof (i_nused _ _ _ _ _ I i' Hi') as Q. rewrite cntc_cons, Sl in Q. fold i in Q. cbn [andb] in Q.
    unfold fset. destruct (i' =? i) eqn:Ei.
    + apply Z.eqb_eq in Ei. subst i'. rewrite Z.eqb_refl in Q. cbn [sl_nused]. lia.
    + apply Z.eqb_neq in Ei. replace (i =? i') with false in Q by lia. lia.
  - rewrite (i_bytes _ _ _ _ _ I). cbn [map]. rewrite zsum_cons. lia.
  - intros e' He. exact (i_pos _ _ _ _ _ I e' (or_intror He)).
Qed.

Lemma filter_out_len : forall (l d : list Z), NoDup l -> NoDup d -> incl d l ->
  zlen (filter (fun x => negb (mem_z x d)) l) = zlen l - zlen d.
Proof.
  intros l d Hl Hd Hi. set (f := filter (fun x => negb (mem_z x d)) l).
  assert (P : Permutation l (d ++ f)).
  { apply NoDup_Permutation; [exact Hl| |].
    - apply NoDup_app_intro; [exact Hd | apply NoDup_filter; exact Hl |].
      intros x Hx Hf. apply filter_In in Hf as [_ Hf]. apply mem_z_in in Hx. rewrite Hx in Hf. discriminate.
    - intros x. rewrite in_app_iff. unfold f. rewrite filter_In. split.
      + intros H. destruct (mem_z x d) eqn:E; [left; apply mem_z_in; exact E | right; split; [exact H | reflexivity]].
      + intros [H|[H _]]; [exact (Hi x H) | exact H]. }
  apply Permutation_length in P. rewrite app_length in P. unfold zlen. lia.
Qed.
Lemma shrink_free_ok : forall s U L i p b flags j, Inv (set_bytes s b) U L (Some p) -> In (p, 1, KSlab i) U -> cnt p L = 0 ->
  exists s' U', (slab_shrink i p j ;;; free_npgs c p 1 flags) s = (s', ROk tt) /\ q_bytes s' = q_bytes s /\
    Inv (set_bytes s' b) U' L None /\ Keep L (q_mem s) (q_mem s').
Proof.
  intros s U L i p b flags j I Hu C0. destruct (in_perm _ _ Hu) as (U' & PU).
  pose proof (inv_perm _ _ _ _ _ _ PU (Permutation_refl _) I) as I'. clear I Hu PU U.
  destruct (i_slab _ _ _ _ _ I' p 1 i (or_introl eq_refl)) as (_ & Hi & A3 & A4 & A5 & _).
  cbn [set_bytes q_pg] in A3, A4, A5. rewrite C0 in A5.
  pose proof (i_lnd _ _ _ _ _ I' i Hi) as LND. cbn [set_bytes q_slab] in LND.
  pose proof (i_nfree _ _ _ _ _ I' i Hi) as LNF. cbn [set_bytes q_slab] in LNF.
  assert (IN : incl (page_segs i p) (sl_list (q_slab s i))).
  { intros x Hx. apply in_segs in Hx as [X1 X2]; [|exact Hi]. apply (i_lin _ _ _ _ _ I' i x Hi).
    split; [left; congruence|]. split; [exact X2|]. intros H. apply in_map_iff in H as (e & E & He).
    apply (cnt_zero p L e C0 He). rewrite E. exact X1. }
  pose proof (filter_out_len _ _ LND (segs_nodup i p Hi) IN) as FL.
  pose proof (zlen_nonneg _ (filter (fun x => negb (mem_z x (page_segs i p))) (sl_list (q_slab s i)))) as FZ.
  unfold qbind, slab_shrink. rewrite A3, A5, !Z.eqb_refl. cbn [negb orb].
  replace (sl_nfree (q_slab s i) <? zlen (page_segs i p)) with false by lia.
  replace (forallb (fun x => mem_z x (sl_list (q_slab s i))) (page_segs i p)) with true
    by (symmetry; apply forallb_forall; intros x Hx; apply mem_z_in; exact (IN x Hx)).
  cbn [negb].
  match goal with |- context [free_npgs c p 1 flags ?x] => set (s2 := x) end.
  assert (P2 : Pool (q_pg s2) (q_list s2) ((p, 1, KSlab i) :: U')) by (apply pool_slab; exact (i_pool _ _ _ _ _ I')).
  destruct (pool_free c s2 p 1 (KSlab i) U' flags P2) as (pg' & l' & mem' & E & P' & Sf & Mm).
  rewrite E. eexists _, U'. split; [reflexivity|]. split; [reflexivity|].
  assert (Disj : forall x i', In (x, 1, KSlab i') U' -> x <> p).
  { intros x i' H ->. destruct (pool_disj _ _ _ _ _ _ _ _ _ _ P2 (or_introl eq_refl) (or_intror H)) as [Q|[Q|Q]]; [|lia|lia].
    pose proof (pool_nodup _ _ _ _ P2) as NU. inversion NU as [|? ? Hx _]; subst. apply Hx. rewrite Q. exact H. }
  assert (IV : Inv (set_bytes (set_list (set_pg (set_mem s2 mem') pg') l') b) U' L None).
  { constructor; unfold s2; cbn [set_bytes set_use set_list set_pg set_mem set_slab q_pg q_list q_use q_slab q_bytes q_mem].
    - exact P'.
    - pose proof (i_use _ _ _ _ _ I') as Q. rewrite multi_cons in Q. exact Q.
    - intros x n H. exact (i_run _ _ _ _ _ I' x n (or_intror H)).
    - intros e He Se. destruct (i_multi _ _ _ _ _ I' e He Se) as [X1 X2]. split; [exact X1|].
      apply perm_in_cons in X2 as [X2|X2]; [discriminate | exact X2].
    - intros x n i' H. destruct (i_slab _ _ _ _ _ I' x n i' (or_intror H)) as (B1 & B2 & B3 & B4 & B5 & B6). subst n.
      pose proof (Disj x i' H) as Nx. destruct (Sf x) as (F1 & F2 & F3). rewrite F1, F2, F3.
      unfold s2. cbn [set_slab set_mem set_pg q_pg]. rewrite fset_other by exact Nx.
      destruct B6 as [B6|B6]; [exfalso; apply Nx; congruence|]. auto 10.
    - intros e He Se. destruct (i_ent _ _ _ _ _ I' e He Se) as [X1 X2]. split; [|exact X2].
      apply perm_in_cons in X1 as [X1|X1]; [|exact X1]. exfalso. apply (cnt_zero p L e C0 He). congruence.
    - exact (i_nd _ _ _ _ _ I').
    - intros i' Hi'. unfold fset. destruct (i' =? i) eqn:Ei; [|exact (i_lnd _ _ _ _ _ I' i' Hi')].
      cbn [sl_list]. apply NoDup_filter. exact LND.
    - intros i' x Hi'. pose proof (i_lin _ _ _ _ _ I' i' x Hi') as Q. cbn [set_bytes q_slab] in Q. rewrite perm_in_cons in Q.
      unfold fset. destruct (i' =? i) eqn:Ei.
      + apply Z.eqb_eq in Ei. subst i'. cbn [sl_list]. rewrite filter_In, Q. split.
        * intros (([A|A] & B & D) & F); [|auto]. exfalso.
          assert (mem_z x (page_segs i p) = true) by (apply mem_z_in, in_segs; [exact Hi | split; [congruence | exact B]]).
          rewrite H in F. discriminate.
        * intros (A & B & D). split; [auto|]. rewrite mem_z_notin; [reflexivity|]. intros F.
          apply in_segs in F as [F _]; [|exact Hi]. exact (Disj _ _ A F).
      + apply Z.eqb_neq in Ei. rewrite Q. split; [|tauto]. intros ([A|A] & B); [exfalso; apply Ei; congruence | auto].
    - intros i' Hi'. unfold fset. destruct (i' =? i) eqn:Ei; [|exact (i_nfree _ _ _ _ _ I' i' Hi')]. cbn [sl_nfree sl_list]. lia.
    - intros i' Hi'. unfold fset. destruct (i' =? i) eqn:Ei; [|exact (i_nused _ _ _ _ _ I' i' Hi')].
      apply Z.eqb_eq in Ei. subst i'. cbn [sl_nused]. exact (i_nused _ _ _ _ _ I' i Hi).
    - exact (i_bytes _ _ _ _ _ I').
    - exact (i_pos _ _ _ _ _ I'). }
  split; [exact IV|]. cbn [set_bytes set_use set_list set_pg set_mem q_mem].
  eapply keep_trans; [|exact (keep_pool _ _ _ _ _ _ IV Mm)].
  unfold s2. cbn [set_slab set_mem set_pg q_mem]. apply keep_clobber. intros x e Hx He.
  pose proof (seg_le_elem i Hi). destruct (elem_disj _ _ _ _ _ e i x I' He Hi Hx); lia.
Qed.

Lemma slab_free_ok : forall s U L e flags j, Inv s U (e :: L) None -> is_slab (e_sz e) = true ->
  exists s' U', slab_free_upd c (cls e) (e_ptr e) flags j s = (s', ROk tt) /\ q_bytes s' = q_bytes s /\
    Inv (set_bytes s' (q_bytes s' - e_sz e)) U' L None /\ Keep L (q_mem s) (q_mem s').
Proof.
  intros s U L e flags j I Sl. pose proof (slab_cls e Sl) as Hi.
  destruct (i_ent _ _ _ _ _ I e (or_introl eq_refl) Sl) as [Hu Hm].
  destruct (i_slab _ _ _ _ _ I _ _ _ Hu) as (_ & _ & A3 & A4 & A5 & _).
  destruct (pool_in _ _ _ _ _ _ _ (i_pool _ _ _ _ _ I) Hu) as (_ & _ & P1 & _).
  assert (Na : ~ In (e_ptr e) (sl_list (q_slab s (cls e)))).
  { intros H. apply (i_lin _ _ _ _ _ I _ _ Hi) in H as (_ & _ & H). apply H. left. reflexivity. }
  pose proof (i_nused _ _ _ _ _ I _ Hi) as Nu. rewrite cntc_cons, Sl, Z.eqb_refl in Nu. cbn [andb] in Nu.
  pose proof (cntc_nonneg (cls e) L) as Nz. rewrite cnt_cons, Z.eqb_refl in A5.
  pose proof (cnt_nonneg (e_ptr e / PG) L) as Cz.
  set (m1 := clobber (e_ptr e :: sl_list (q_slab s (cls e))) j (q_mem s)).
  pose proof (pushed_inv s U L e m1 I Sl) as I1.
  assert (K1 : Keep L (q_mem s) m1).
  { unfold m1. apply keep_clobber. intros x e' Hx He. pose proof (seg_le_elem _ Hi).
    assert (Hx' : In x (sl_list (q_slab (set_bytes (pushed s (cls e) (e_ptr e) m1) (q_bytes s - e_sz e)) (cls e)))).
    { unfold pushed. cbn [set_bytes set_pg set_mem set_slab q_slab]. rewrite fset_same. exact Hx. }
    destruct (elem_disj _ _ _ _ _ e' (cls e) x I1 He Hi Hx'); lia. }
  assert (Le : cnt (e_ptr e / PG) L < PG / elemsz (cls e)).
  { refine (page_room _ _ _ _ _ (cls e) (e_ptr e) I1 Hi _). unfold pushed. cbn [set_bytes set_pg set_mem set_slab q_slab].
    rewrite fset_same. left. reflexivity. }
  assert (Run : slab_free_upd c (cls e) (e_ptr e) flags j s =
    (if cnt (e_ptr e / PG) L =? 0 then slab_shrink (cls e) (e_ptr e / PG) j ;;; free_npgs c (e_ptr e / PG) 1 flags else qret tt)
      (pushed s (cls e) (e_ptr e) m1)).
  { unfold slab_free_upd. rewrite (bind_ok _ _ _ _ _ s (e_ptr e / PG)) by (apply page_of_ok; lia).
    rewrite (bind_ok _ _ qget _ s s s) by reflexivity.
    rewrite (bind_ok _ _ _ _ _ s tt) by (apply assert_ok; lia).
    erewrite (bind_ok _ _ (slab_free _ _ _)); [|unfold slab_free; rewrite (mem_z_notin _ _ Na); replace (sl_nused (q_slab s (cls e)) <=? 0) with false by lia; reflexivity].
    erewrite (bind_ok _ _ (qassert _)); [|apply assert_ok; lia].
    erewrite (bind_ok _ _ (qassert _)); [|apply assert_ok; lia].
    erewrite (bind_ok _ _ (upd_pg _ _)); [|reflexivity].
    replace (pg_snused (q_pg s (e_ptr e / PG)) - 1) with (cnt (e_ptr e / PG) L) by lia. reflexivity. }
  rewrite Run. clear Run.
  destruct (cnt (e_ptr e / PG) L =? 0) eqn:E0.
  - apply Z.eqb_eq in E0. destruct (shrink_free_ok _ U L (cls e) _ _ flags j I1 Hu E0) as (s' & U' & E & B & IV & K).
    rewrite E. exists s', U'. split; [reflexivity|]. split; [exact B|]. rewrite B. split; [exact IV|].
    exact (keep_trans _ _ _ _ K1 K).
  - apply Z.eqb_neq in E0. exists (pushed s (cls e) (e_ptr e) m1), U. split; [reflexivity|]. split; [reflexivity|]. split; [|exact K1].
    destruct I1 as [J1 J2 J3 J4 J5 J6 J7 J8 J9 J10 J11 J12 J13]. constructor; try assumption. intros x n i H. destruct (J5 x n i H) as (B1 & B2 & B3 & B4 & B5 & B6).
    split; [exact B1|]. split; [exact B2|]. split; [exact B3|]. split; [exact B4|]. split; [exact B5|]. right.
    destruct B6 as [B6|B6]; [|exact B6]. assert (x = e_ptr e / PG) by congruence. subst x. clear -Cz E0. generalize dependent (cnt (e_ptr e / PG) L). intros; lia.
Qed.

Lemma free_ok : forall s U L e flags j, Inv s U (e :: L) None ->
  exists s' U', qfree c (e_ptr e) (e_sz e) flags j s = (s', ROk tt) /\ Inv s' U' L None /\ Keep L (q_mem s) (q_mem s').
Proof.
  intros s U L e flags j I. pose proof (i_pos _ _ _ _ _ I e (or_introl eq_refl)) as Pz.
  destruct (place _ _ _ _ _ _ I (or_introl eq_refl)) as (p & n & k & Hu & Ha & Hb & _).
  destruct (pool_in _ _ _ _ _ _ _ (i_pool _ _ _ _ _ I) Hu) as (P0 & _ & P1 & _).
  assert (B0 : 0 <= p * PG) by (apply Z.mul_nonneg_nonneg; [exact P0 | discriminate]).
  assert (B1 : (p + n) * PG <= N * PG) by (apply Z.mul_le_mono_nonneg_r; [discriminate | exact P1]).
  unfold qfree, do_free. replace (e_sz e =? 0) with false by lia.
  assert (Ck : check_free c (e_ptr e) (e_sz e) s = (s, ROk tt)).
  { unfold check_free. replace ((e_sz e =? 0) || (MALLOC_MAX <? e_sz e)) with false by lia.
    replace ((0 <=? e_ptr e) && (e_ptr e + e_sz e <=? N * PG)) with true by lia. reflexivity. }
  rewrite (bind_ok _ _ _ _ _ s tt Ck). rewrite (bind_ok _ _ qget _ s s s) by reflexivity.
  match goal with |- context [qput ?x] => set (s1 := x) end.
  rewrite (bind_ok _ _ (qput s1) _ s s1 tt) by reflexivity.
  assert (S1 : exists m, s1 = set_mem s m /\ Keep L (q_mem s) m).
  { assert (KF : forall w v, w <= e_sz e -> Keep L (q_mem s) (fill (q_mem s) (e_ptr e) w v)).
    { intros w v Hw. apply keep_fill. intros e' He.
      assert (Hne : e <> e').
      { intros Q. pose proof (i_nd _ _ _ _ _ I) as ND. cbn [map] in ND. inversion ND as [|? ? Hx _]; subst.
        apply Hx. apply in_map. exact He. }
      pose proof (live_disj _ _ _ _ _ _ _ I (or_introl eq_refl) (or_intror He) Hne) as D. lia. }
    assert (Id : s = set_mem s (q_mem s)) by (destruct s; reflexivity).
    unfold s1. destruct (negb (flags =? 0)).
    - destruct (has_flag flags 1); [eexists; split; [reflexivity | apply KF; lia] | exists (q_mem s); split; [exact Id | apply keep_refl]].
    - destruct (c_demask c); [eexists; split; [reflexivity | apply KF; lia] | exists (q_mem s); split; [exact Id | apply keep_refl]]. }
  clearbody s1. destruct S1 as (m & -> & K1). pose proof (inv_mem _ _ _ _ _ m I) as I1.
  assert (Main : exists s' U',
     (if is_slab (e_sz e)
      then i <- slab_of (e_sz e) ;; (let a := e_ptr e / SEG * SEG in slab_check c i a (e_sz e) ;;; slab_free_upd c i a flags j)
      else free_multi c (e_ptr e) (e_sz e) flags) (set_mem s m) = (s', ROk tt) /\ q_bytes s' = q_bytes s /\
     Inv (set_bytes s' (q_bytes s' - e_sz e)) U' L None /\ Keep L m (q_mem s')).
  { destruct (is_slab (e_sz e)) eqn:Sl; [|exact (free_multi_ok _ _ _ _ flags I1 Sl)].
    destruct (sindex_facts _ Sl) as [Hi Hle]. destruct (i_ent _ _ _ _ _ I e (or_introl eq_refl) Sl) as [Hc Hm].
    destruct (i_slab _ _ _ _ _ I _ _ _ Hc) as (_ & _ & A3 & A4 & A5 & _).
    destruct (pool_in _ _ _ _ _ _ _ (i_pool _ _ _ _ _ I) Hc) as (_ & _ & P2 & _).
    destruct (elem_facts _ (slab_cls e Sl)) as (_ & E16 & Em & _).
    assert (Ea : e_ptr e / SEG * SEG = e_ptr e).
    { unfold SEG. apply Z.div_exact in Hm; [|lia]. apply Z.div_exact in Em; [|lia].
      rewrite Hm at 1. rewrite Em at 1. rewrite <- !Z.mul_assoc, (Z.mul_comm 16), Z.div_mul by lia. lia. }
    unfold slab_of, qbind at 1 2, qassert at 1. replace (sindex_of (e_sz e) =? SIDX_NONE) with false by (unfold SIDX_NONE; lia).
    cbn [negb]. unfold qret at 1 2. cbv zeta. rewrite Ea. fold (cls e). unfold qbind at 1. unfold slab_check, page_of, qbind, qget, qassert, qret.
    cbn [set_mem q_slab q_pg].
    pose proof (i_nused _ _ _ _ _ I _ (slab_cls e Sl)) as Nu. rewrite cntc_cons, Sl, Z.eqb_refl in Nu. cbn [andb] in Nu.
    pose proof (cntc_nonneg (cls e) L) as Nz. rewrite cnt_cons, Z.eqb_refl in A5. pose proof (cnt_nonneg (e_ptr e / PG) L) as Cz.
    fold (cls e) in Hle.
    replace (sl_nused (q_slab s (cls e)) =? 0) with false by lia. replace (elemsz (cls e) <? e_sz e) with false by lia.
    replace (2 * elemsz (cls e) <=? e_sz e) with false by lia. replace (e_ptr e / PG <? N) with true by lia.
    rewrite A3, Z.eqb_refl, A5. cbn [negb]. replace (1 + cnt (e_ptr e / PG) L =? 0) with false by lia.
    exact (slab_free_ok _ _ _ _ flags j I1 Sl). }
  destruct Main as (s' & U' & E & B & IV & K2). rewrite (bind_ok _ _ _ _ _ s' tt E). rewrite (bind_ok _ _ qget _ s' s' s') by reflexivity.
  assert (Bz : e_sz e <= q_bytes s').
  { rewrite B, (i_bytes _ _ _ _ _ I). cbn [map]. rewrite zsum_cons. enough (0 <= zsum (map e_sz L)) by lia.
    pose proof (i_pos _ _ _ _ _ I) as Pp. clear -Pp. induction L as [|x L IH]; [cbn; lia|]. cbn [map]. rewrite zsum_cons.
    pose proof (Pp x (or_intror (or_introl eq_refl))). enough (0 <= zsum (map e_sz L)) by lia. apply IH.
    intros y [Hy|Hy]; apply Pp; [left; exact Hy | right; right; exact Hy]. }
  erewrite (bind_ok _ _ (qassert _)); [|apply assert_ok; lia]. unfold qput.
  eexists _, U'. split; [reflexivity|]. split; [exact IV|]. exact (keep_trans _ _ _ _ K1 K2).
Qed.
End Free.
