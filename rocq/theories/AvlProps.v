(* C30: the ordered index holds exactly what was inserted and not removed. *)
From Coq Require Import Permutation Sorting.Sorted.
From Verif Require Import Base AddrModel AvlModel AvlProofs.

(* ---- specification: a bag of nodes ---- *)
Section Spec.
Variable K : Type.
Variable cmp : K -> K -> Z.
Notation anode := (anode K).

Inductive aop := OIns (z : anode) | OInsU (z : anode) | OInsR (z : anode) | ORem (id : Z).
Inductive aout := RDone | RBool (b : bool) | ROld (y : option anode).

Definition same_key (x y : anode) : Prop := cmp (nd_key x) (nd_key y) = 0.
Definition drop_id (id : Z) (live : list anode) : list anode := filter (fun x => negb (nd_id x =? id)) live.

(* callers insert nodes that are not in the index and remove nodes that are *)
Definition legal (live : list anode) (o : aop) : Prop :=
  match o with
  | OIns z | OInsU z | OInsR z => ~ In (nd_id z) (map nd_id live)
  | ORem id => In id (map nd_id live)
  end.
Definition good_out (live : list anode) (o : aop) (out : aout) : Prop :=
  match o, out with
  | OIns _, RDone => True
  | OInsU z, RBool b => b = true <-> ~ exists y, In y live /\ same_key y z
  | OInsR z, ROld None => ~ exists y, In y live /\ same_key y z
  | OInsR z, ROld (Some y) => In y live /\ same_key y z
  | ORem _, RDone => True
  | _, _ => False
  end.
Definition spec_next (live : list anode) (o : aop) (out : aout) : list anode :=
  match o, out with
  | OIns z, _ => z :: live
  | OInsU z, RBool b => if b then z :: live else live
  | OInsR z, ROld (Some y) => z :: drop_id (nd_id y) live
  | OInsR z, _ => z :: live
  | ORem id, _ => drop_id id live
  | _, _ => live
  end.

(* ---- the index driven by the same calls ---- *)
Definition astep (a : avl K) (o : aop) : option (avl K * aout) :=
  match o with
  | OIns z => option_map (fun a' => (a', RDone)) (avl_insert K cmp a z)
  | OInsU z => option_map (fun r => (fst r, RBool (snd r))) (avl_insert_unique K cmp a z)
  | OInsR z => option_map (fun r => (fst r, ROld (snd r))) (avl_insert_replace K cmp a z)
  | ORem id => option_map (fun a' => (a', RDone)) (avl_remove a id)
  end.
Inductive reach : avl K -> list anode -> Prop :=
| R0 : reach avl_empty []
| RS a live o a' out : reach a live -> legal live o -> astep a o = Some (a', out) ->
    reach a' (spec_next live o out).

Definition total_preorder : Prop :=
  (forall a b, 0 < cmp a b <-> cmp b a < 0) /\ (forall a b c, 0 <= cmp a b -> 0 <= cmp b c -> 0 <= cmp a c).
End Spec.
Arguments RDone {K}.
Arguments RBool {K}.
Arguments ROld {K}.
Arguments OIns {K}.
Arguments OInsU {K}.
Arguments OInsR {K}.
Arguments ORem {K}.
Arguments legal {K}.
Arguments drop_id {K}.
Arguments good_out {K}.
Arguments spec_next {K}.
Arguments astep {K}.
Arguments reach {K}.
Arguments same_key {K}.
Arguments total_preorder {K}.

Section Run.
Variable K : Type.
Variable cmp : K -> K -> Z.
Notation anode := (anode K).
Notation elems := (elems K).
Notation sorted := (StronglySorted (le K cmp)).

Lemma drop_id_split : forall (A B : list anode) x, NoDup (map nd_id (A ++ x :: B)) ->
  drop_id (nd_id x) (A ++ x :: B) = A ++ B.
Proof.
  intros A B x N. rewrite map_app in N. cbn [map] in N. apply NoDup_remove_2 in N.
  assert (H : forall L : list anode, ~ In (nd_id x) (map nd_id L) -> drop_id (nd_id x) L = L).
  { induction L as [|u L IH]; intros HL; cbn [drop_id filter]; auto.
    destruct (Z.eqb_spec (nd_id u) (nd_id x)) as [E|E].
    - exfalso. apply HL. left. auto.
    - cbn [negb]. f_equal. apply IH. intros C. apply HL. now right. }
  unfold drop_id in *. rewrite filter_app. cbn [filter]. rewrite Z.eqb_refl. cbn [negb].
  rewrite !H; auto; intros C; apply N, in_or_app; auto.
Qed.

Lemma drop_id_perm : forall id (l l' : list anode), Permutation l l' -> Permutation (drop_id id l) (drop_id id l').
Proof.
  intros id l l' P. induction P as [|x l l' P IH|x y l|l l' l'' P1 IH1 P2 IH2]; cbn [drop_id filter]; auto.
  - destruct (negb (nd_id x =? id)); auto.
  - destruct (negb (nd_id x =? id)), (negb (nd_id y =? id)); auto. constructor.
  - eapply Permutation_trans; eauto.
Qed.

Definition rel (a : avl K) (live : list anode) : Prop := avl_inv K a /\ Permutation (elems a) live.

Lemma rel_in : forall a live i, rel a live -> (In i (map nd_id live) <-> In i (ids K (elems a))).
Proof.
  intros a live i (V & P). unfold ids. split; intros H; eapply Permutation_in; try eassumption;
    [apply Permutation_map, Permutation_sym|apply Permutation_map]; auto.
Qed.

Lemma in_ids_split : forall (l : list anode) i, In i (map nd_id l) -> exists A x B, l = A ++ x :: B /\ nd_id x = i.
Proof.
  intros l i H. apply in_map_iff in H. destruct H as (x & Hx & Hi). apply in_split in Hi.
  destruct Hi as (A & B & ->). exists A, x, B. auto.
Qed.

(* whatever the comparison: nothing is lost, invented or duplicated *)
Lemma find_in_in : forall t k x, find_in K cmp t k = Some x -> In x (inorder K t) /\ cmp (nd_key x) k = 0.
Proof.
  induction t as [|l IHl y b r IHr]; intros k x H; cbn [find_in inorder] in *; [discriminate|].
  destruct (Z.ltb_spec (cmp (nd_key y) k) 0) as [H1|H1].
  - apply IHl in H. destruct H. split; auto. apply in_or_app. auto.
  - destruct (Z.ltb_spec 0 (cmp (nd_key y) k)) as [H2|H2].
    + apply IHr in H. destruct H. split; auto. apply in_or_app. right. now right.
    + injection H as <-. split; [apply in_or_app; right; now left|lia].
Qed.

Lemma insert_rel : forall a live z, rel a live -> ~ In (nd_id z) (map nd_id live) ->
  exists a', avl_insert K cmp a z = Some a' /\ rel a' (z :: live).
Proof.
  intros a live z R Hz. pose proof R as (V & P). rewrite (rel_in a live) in Hz by auto.
  destruct (insert_ok K cmp a z V Hz) as (a' & A & B & E1 & E2 & E3 & E4 & _).
  exists a'. split; [exact E1|]. split; [exact E2|]. rewrite E4.
  apply Permutation_sym, Permutation_cons_app. rewrite E3 in P. apply Permutation_sym, P.
Qed.

Lemma insert_unique_cases : forall a z, avl_inv K a -> ~ In (nd_id z) (ids K (elems a)) ->
  (avl_insert_unique K cmp a z = Some (a, false) /\ search_uniq K cmp (a_root a) (nd_key z) [] = None) \/
  (exists a' A B, avl_insert_unique K cmp a z = Some (a', true) /\ avl_inv K a' /\
     elems a = A ++ B /\ elems a' = A ++ z :: B /\
     (elems a = [] \/ exists q, search_uniq K cmp (a_root a) (nd_key z) [] = Some q /\ lefts K q = A /\ rights K q = B)).
Proof.
  intros a z V Hz. unfold avl_insert_unique. destruct (0 <? a_size a) eqn:Es.
  - destruct (search_uniq K cmp (a_root a) (nd_key z) []) as [q|] eqn:S; [|left; auto].
    right. destruct (search_uniq_ok K cmp _ _ _ _ S) as (A & B & E1 & E2 & E3 & E4).
    cbn [lefts rights app] in *. rewrite app_nil_r in E4.
    destruct (insert_at_ok K a z q) as (a' & F1 & F2 & F3); auto.
    + now apply root_ne.
    + exists a', A, B. rewrite F1. cbn [option_map]. rewrite F3, E3, E4. split; [reflexivity|]. split; [exact F2|]. split; [exact E1|]. split; [reflexivity|]. right. exists q. auto.
  - right. assert (E : elems a = []).
    { unfold AvlProofs.elems. pose proof (v_size _ _ V) as H. destruct (inorder K (a_root a)) as [|x l]; auto.
      rewrite zlen_cons in H. pose proof (zlen_nonneg _ l). apply Z.ltb_ge in Es. lia. }
    exists (insert_root z), [], []. split; [reflexivity|]. split; [apply root_inv|]. auto.
Qed.

Lemma step_rel : forall a live o, rel a live -> legal live o ->
  exists a' out, astep cmp a o = Some (a', out) /\ rel a' (spec_next live o out).
Proof.
  intros a live o R L. pose proof R as (V & P). destruct o as [z|z|z|id]; cbn [legal astep] in *.
  - destruct (insert_rel a live z R L) as (a' & E & R'). rewrite E. exists a', RDone. auto.
  - rewrite (rel_in a live) in L by auto.
    destruct (insert_unique_cases a z V L) as [(E & _)|(a' & A & B & E & V' & E1 & E2 & _)]; rewrite E.
    + exists a, (RBool false). auto.
    + exists a', (RBool true). split; [reflexivity|]. split; [exact V'|]. cbn [spec_next].
      rewrite E2. apply Permutation_sym, Permutation_cons_app. rewrite E1 in P. apply Permutation_sym, P.
  - unfold avl_insert_replace. destruct (avl_find K cmp a (nd_key z)) as [y|] eqn:F.
    + unfold avl_find in F. destruct (0 <? a_size a); [|discriminate]. apply find_in_in in F. destruct F as (Fi & Fk).
      destruct (in_split _ _ Fi) as (A & B & E). fold (elems a) in E.
      rewrite (rel_in a live) in L by auto.
      destruct (Z.eqb_spec (nd_id y) (nd_id z)) as [Ei|Ei].
      * exfalso. apply L. rewrite E. unfold ids. rewrite map_app. apply in_or_app. right. left. auto.
      * destruct (replace_ok K a A y B z V E) as (a' & E1 & E2 & E3).
        -- intros C. apply L. rewrite E. unfold ids in *. rewrite map_app in *. apply in_app_iff in C.
           apply in_or_app. cbn [map]. destruct C; auto. right. now right.
        -- rewrite E1. exists a', (ROld (Some y)). split; [reflexivity|]. split; [exact E2|]. cbn [spec_next].
           rewrite E3. apply Permutation_sym, Permutation_cons_app.
           apply Permutation_sym in P. eapply Permutation_trans; [apply drop_id_perm, P|].
           rewrite E, drop_id_split; auto. rewrite <- E. apply (v_nodup _ _ V).
    + destruct (insert_rel a live z R L) as (a' & E & R'). rewrite E. exists a', (ROld None). auto.
  - rewrite (rel_in a live) in L by auto. destruct (in_ids_split _ _ L) as (A & x & B & E & <-).
    destruct (remove_ok K a A x B V E) as (a' & E1 & E2 & E3). rewrite E1.
    exists a', RDone. split; [reflexivity|]. split; [exact E2|]. cbn [spec_next]. rewrite E3.
    apply Permutation_sym. eapply Permutation_trans; [apply drop_id_perm, Permutation_sym, P|].
    rewrite E, drop_id_split; auto. rewrite <- E. apply (v_nodup _ _ V).
Qed.

Lemma reach_rel : forall a live, reach cmp a live -> rel a live.
Proof.
  induction 1 as [|a live o a' out H IH L E].
  - split; [apply empty_inv|constructor].
  - destruct (step_rel a live o IH L) as (a2 & out2 & E2 & R2). rewrite E in E2. injection E2 as <- <-. exact R2.
Qed.

Lemma same_key_sym : forall (cmp_anti : forall a b, 0 < cmp a b <-> cmp b a < 0) a b, cmp a b = 0 -> cmp b a = 0.
Proof. intros H a b E. pose proof (H a b). pose proof (H b a). lia. Qed.

Lemma step_sorted : forall a live o a' out, total_preorder cmp -> rel a live -> sorted (elems a) -> legal live o ->
  astep cmp a o = Some (a', out) -> sorted (elems a') /\ good_out cmp live o out.
Proof.
  intros a live o a' out (Anti & Trans) R S L H. pose proof R as (V & P).
  assert (Pin : forall x, In x (elems a) <-> In x live).
  { intros x. split; intros Hx; eapply Permutation_in; try eassumption. now apply Permutation_sym. }
  destruct o as [z|z|z|id]; cbn [legal astep] in *.
  - destruct (avl_insert K cmp a z) as [a2|] eqn:E; [|discriminate]. injection H as <- <-.
    split; [|exact I]. rewrite (rel_in a live) in L by auto.
    now apply (insert_sorted K cmp Anti Trans a z).
  - rewrite (rel_in a live) in L by auto.
    destruct (insert_unique_cases a z V L) as [(E & E0)|(a2 & A & B & E & V' & E1 & E2 & E3)]; rewrite E in H;
      injection H as <- <-.
    + split; auto. cbn [good_out snd fst]. split; [discriminate|]. intros C. exfalso. apply C.
      destruct (search_uniq_none K cmp Anti Trans _ _ _ E0) as (x & Hx & Ex). exists x. split; auto. now apply Pin.
    + cbn [good_out snd fst]. destruct E3 as [E3|(q & Q1 & Q2 & Q3)].
      * rewrite E3 in E1. symmetry in E1. apply app_eq_nil in E1. destruct E1 as (-> & ->).
        split; [rewrite E2; cbn; repeat constructor|]. split; auto. intros _ (y & Hy & _).
        apply Pin in Hy. now rewrite E3 in Hy.
      * destruct (search_uniq_sorted K cmp Anti Trans _ _ _ _ S Q1 A B) as (F1 & F2); auto.
        { cbn [rights]. rewrite app_nil_r. auto. }
        rewrite Forall_forall in F1, F2. split.
        -- rewrite E2. rewrite E1 in S. apply sorted_app in S. destruct S as (SA & SB & SAB).
           apply sorted_app. split; auto. split.
           ++ constructor; auto. apply Forall_forall. intros y Hy. apply F2, Anti in Hy. unfold le. lia.
           ++ intros u v Hu [<-|Hv]; auto. apply F1 in Hu. unfold le. lia.
        -- split; auto. intros _ (y & Hy & Ey). apply Pin in Hy. rewrite E1 in Hy. apply in_app_or in Hy.
           unfold same_key in Ey. destruct Hy as [Hy|Hy]; [apply F1 in Hy|apply F2 in Hy]; lia.
  - unfold avl_insert_replace in H. destruct (avl_find K cmp a (nd_key z)) as [y|] eqn:F.
    + unfold avl_find in F. destruct (0 <? a_size a); [|discriminate]. apply find_in_in in F. destruct F as (Fi & Fk).
      destruct (in_split _ _ Fi) as (A & B & E). fold (elems a) in E.
      assert (L' := L). rewrite (rel_in a live) in L' by auto.
      destruct (Z.eqb_spec (nd_id y) (nd_id z)) as [Ei|Ei].
      { exfalso. apply L'. rewrite E. unfold ids. rewrite map_app. apply in_or_app. right. left. auto. }
      destruct (replace_ok K a A y B z V E) as (a2 & E1 & E2 & E3).
      { intros C. apply L'. rewrite E. unfold ids in *. rewrite map_app in *. apply in_app_iff in C.
        apply in_or_app. cbn [map]. destruct C; auto. right. now right. }
      rewrite E1 in H. injection H as <- <-. cbn [good_out fst snd].
      split; [|split; auto; apply Pin; exact Fi].
      rewrite E3. rewrite E in S. apply sorted_app in S. destruct S as (SA & SB & SAB).
      inversion SB as [|? ? SB1 SB2]; subst. rewrite Forall_forall in SB2.
      assert (Kzy := same_key_sym Anti _ _ Fk).
      apply sorted_app. split; auto. split.
      * constructor; auto. apply Forall_forall. intros u Hu. unfold le.
        apply (Trans _ (nd_key y)); [lia|]. now apply SB2.
      * intros u v Hu [<-|Hv]; [|apply SAB; auto; now right]. unfold le.
        apply (Trans _ (nd_key y)); [|lia]. apply (SAB u y); auto. now left.
    + destruct (avl_insert K cmp a z) as [a2|] eqn:E; [|discriminate]. injection H as <- <-.
      cbn [good_out]. rewrite (rel_in a live) in L by auto. split.
      * now apply (insert_sorted K cmp Anti Trans a z).
      * intros (y & Hy & Ey). apply Pin in Hy. unfold avl_find in F. destruct (0 <? a_size a) eqn:Es.
        -- pose proof (find_in_ok K cmp Anti Trans (a_root a) (nd_key z) S) as FO. rewrite F in FO.
           now apply (FO y).
        -- pose proof (v_size _ _ V) as Hs. apply Z.ltb_ge in Es. rewrite Hs in Es.
           unfold AvlProofs.elems in Hy. destruct (inorder K (a_root a)) as [|u l]; [easy|].
           rewrite zlen_cons in Es. pose proof (zlen_nonneg _ l). lia.
  - rewrite (rel_in a live) in L by auto. destruct (in_ids_split _ _ L) as (A & x & B & E & <-).
    destruct (remove_ok K a A x B V E) as (a2 & E1 & E2 & E3). rewrite E1 in H. injection H as <- <-.
    split; [|exact I]. rewrite E3. rewrite E in S. apply sorted_app in S. destruct S as (SA & SB & SAB).
    inversion SB; subst. apply sorted_app. repeat split; auto. intros u v Hu Hv. apply SAB; auto. now right.
Qed.

Lemma reach_sorted : forall a live, total_preorder cmp -> reach cmp a live -> sorted (elems a).
Proof.
  intros a live T. induction 1 as [|a live o a' out H IH L E]; [constructor|].
  eapply step_sorted; eauto. now apply reach_rel.
Qed.
End Run.

(* ---- C30 ---- *)

(* No legal call ever hits a null pointer, a panic or the end of a walk too early, whatever the
   comparison function; the walk visits every live node exactly once, and backwards in reverse. *)
Theorem C30_contents : forall K (cmp : K -> K -> Z) a live,
  reach cmp a live ->
  (forall o, legal live o -> exists a' out, astep cmp a o = Some (a', out)) /\
  a_size a = zlen live /\
  exists l, avl_walk a = Some l /\ avl_rwalk a = Some (rev l) /\ Permutation l live /\ NoDup (map nd_id l).
Proof.
  intros K cmp a live H. pose proof (reach_rel K cmp a live H) as R. pose proof R as (V & P).
  split; [|split].
  - intros o L. destruct (step_rel K cmp a live o R L) as (a' & out & E & _). eauto.
  - rewrite (v_size _ _ V). unfold zlen. f_equal. now apply Permutation_length.
  - exists (elems K a). rewrite walk_ok, rwalk_ok by auto. repeat split; auto. apply (v_nodup _ _ V).
Qed.

(* With a comparison that is a total preorder the walk is in key order and every call answers
   like the bag of live nodes. *)
Theorem C30_order : forall K (cmp : K -> K -> Z) a live,
  total_preorder cmp -> reach cmp a live ->
  (exists l, avl_walk a = Some l /\ StronglySorted (fun x y => 0 <= cmp (nd_key x) (nd_key y)) l) /\
  (forall o a' out, legal live o -> astep cmp a o = Some (a', out) -> good_out cmp live o out) /\
  (forall k, match avl_find K cmp a k with
             | Some x => In x live /\ cmp (nd_key x) k = 0
             | None => forall x, In x live -> cmp (nd_key x) k <> 0
             end).
Proof.
  intros K cmp a live T H. pose proof (reach_rel K cmp a live H) as R. pose proof R as (V & P).
  pose proof (reach_sorted K cmp a live T H) as S. split; [|split].
  - exists (elems K a). rewrite walk_ok by auto. split; [reflexivity|]. exact S.
  - intros o a' out L E. eapply step_sorted; eauto.
  - intros k. destruct T as (Anti & Trans). unfold avl_find.
    assert (Pin : forall x, In x (elems K a) <-> In x live).
    { intros x. split; intros Hx; eapply Permutation_in; try eassumption. now apply Permutation_sym. }
    destruct (0 <? a_size a) eqn:Es.
    + pose proof (find_in_ok K cmp Anti Trans (a_root a) k S) as FO. destruct (find_in K cmp (a_root a) k) as [x|].
      * destruct FO. split; auto. now apply Pin.
      * intros x Hx. apply FO. now apply Pin.
    + intros x Hx. apply Pin in Hx. pose proof (v_size _ _ V) as Hs. apply Z.ltb_ge in Es. rewrite Hs in Es.
      unfold elems in Hx. destruct (inorder K (a_root a)) as [|u l]; [easy|].
      rewrite zlen_cons in Es. pose proof (zlen_nonneg _ l). lia.
Qed.

(* The bounds: the first live node not before k, the first after k. *)
Theorem C30_bounds : forall K (cmp : K -> K -> Z) a live k,
  total_preorder cmp -> reach cmp a live ->
  exists l, avl_walk a = Some l /\
    avl_lower_bound K cmp a k = find (fun x => negb (0 <? cmp (nd_key x) k)) l /\
    avl_upper_bound K cmp a k = find (fun x => 0 <? cmp k (nd_key x)) l /\
    (forall x, avl_find_first K cmp a k = Some x <->
       exists A B, l = A ++ x :: B /\ cmp (nd_key x) k = 0 /\ forall y, In y A -> cmp (nd_key y) k <> 0).
Proof.
  intros K cmp a live k T H. pose proof (reach_rel K cmp a live H) as R. pose proof R as (V & P).
  pose proof (reach_sorted K cmp a live T H) as S. destruct T as (Anti & Trans).
  exists (elems K a). rewrite walk_ok by auto. split; [reflexivity|].
  assert (LB : avl_lower_bound K cmp a k = find (fun x => negb (0 <? cmp (nd_key x) k)) (elems K a)).
  { unfold avl_lower_bound. rewrite (lower_bound_ok K cmp Anti Trans) by auto. fold (elems K a).
    destruct (0 <? a_size a) eqn:Es; [unfold elems; match goal with |- context [find ?f ?l] => destruct (find f l); reflexivity end|].
    pose proof (v_size _ _ V) as Hs. apply Z.ltb_ge in Es. rewrite Hs in Es. fold (elems K a) in Es.
    destruct (elems K a) as [|u l]; [reflexivity|]. rewrite zlen_cons in Es. pose proof (zlen_nonneg _ l). lia. }
  split; [exact LB|]. split.
  - unfold avl_upper_bound. rewrite (upper_bound_ok K cmp Anti Trans) by auto. fold (elems K a).
    destruct (0 <? a_size a) eqn:Es; [unfold elems; match goal with |- context [find ?f ?l] => destruct (find f l); reflexivity end|].
    pose proof (v_size _ _ V) as Hs. apply Z.ltb_ge in Es. rewrite Hs in Es. fold (elems K a) in Es.
    destruct (elems K a) as [|u l]; [reflexivity|]. rewrite zlen_cons in Es. pose proof (zlen_nonneg _ l). lia.
  - intros x. unfold avl_find_first. rewrite LB. clear LB. fold (elems K a) in S.
    set (l := elems K a) in *. clearbody l. clear -S Anti Trans.
    split.
    + destruct (find _ l) as [y|] eqn:F; [|discriminate].
      destruct (Z.eqb_spec (cmp (nd_key y) k) 0) as [E|E]; [|discriminate]. intros [= <-].
      clear S. induction l as [|u l IH]; cbn [find] in F; [discriminate|].
      destruct (Z.ltb_spec 0 (cmp (nd_key u) k)) as [Hu|Hu]; cbn [negb] in F.
      * destruct (IH F) as (A & B & -> & _ & HA). exists (u :: A), B. split; [reflexivity|]. split; auto.
        intros v [<-|Hv]; [lia|auto].
      * injection F as <-. exists [], l. repeat split; auto. 
    + intros (A & B & -> & E & HA). 
      assert (HA' : forall y, In y A -> 0 < cmp (nd_key y) k).
      { intros y Hy. apply sorted_app in S. destruct S as (_ & _ & SAB).
        assert (0 <= cmp (nd_key y) (nd_key x)) by (apply SAB; auto; now left).
        assert (0 <= cmp (nd_key y) k) by (apply (Trans _ (nd_key x)); auto; lia).
        specialize (HA y Hy). lia. }
      rewrite find_first_app. rewrite find_none_all.
      * cbn [find]. rewrite E. change (negb (0 <? 0)) with true. cbv iota. now rewrite E, Z.eqb_refl.
      * intros y Hy. apply negb_false_iff, Z.ltb_lt. auto.
Qed.

(* A search visits at most 2 log2 (n + 1) nodes. *)
Theorem C30_depth : forall K (cmp : K -> K -> Z) a live,
  reach cmp a live -> 2 ^ depth (a_root a) <= (zlen live + 1) * (zlen live + 1).
Proof.
  intros K cmp a live H. destruct (reach_rel K cmp a live H) as (V & P).
  replace (zlen live) with (zlen (inorder K (a_root a))).
  - apply bal_size, (v_bal _ _ V).
  - unfold zlen. f_equal. now apply Permutation_length.
Qed.

(* The comparison used by the dirty-set index over virtual addresses (hkey_compare_as_vaddr,
   lib/hmdq/hmapq.c:163-167) is not an order: two addresses of different types each come
   "before" the other.  C30_contents still applies to that index, C30_order does not. *)
Theorem C30_vaddr_order_refuted : exists x y,
  0 < vaddr_compare x y /\ 0 < vaddr_compare y x /\ ~ total_preorder vaddr_compare.
Proof.
  exists (vaddr_setup LT_INODE 0), (vaddr_setup LT_DTNODE 8192).
  assert (A : 0 < vaddr_compare (vaddr_setup LT_INODE 0) (vaddr_setup LT_DTNODE 8192)) by reflexivity.
  assert (B : 0 < vaddr_compare (vaddr_setup LT_DTNODE 8192) (vaddr_setup LT_INODE 0)) by reflexivity.
  repeat split; auto. intros (Anti & _). apply Anti in A. lia.
Qed.

(* ---- a run on offsets: insert, replace, remove with rotations ---- *)
Definition zcmp (a b : Z) : Z := b - a.
Lemma zcmp_order : total_preorder zcmp.
Proof. unfold total_preorder, zcmp. split; intros; lia. Qed.
Fixpoint arun (a : avl Z) (live : list (anode Z)) (ops : list (aop Z)) : option (avl Z * list (anode Z)) :=
  match ops with
  | [] => Some (a, live)
  | o :: r => match astep zcmp a o with
              | Some (a', out) => arun a' (spec_next live o out) r
              | None => None
              end
  end.
Definition nd (k : Z) : anode Z := mkNd k (100 + k).
Definition ex_aops : list (aop Z) :=
  map (fun k => OIns (nd k)) [50; 20; 70; 10; 30; 60; 80; 5; 15; 90] ++
  [OInsU (nd 25); OInsU (mkNd 25 999); OInsR (mkNd 30 7); ORem 150; ORem 105; ORem 180].

Fixpoint legal_run (a : avl Z) (live : list (anode Z)) (ops : list (aop Z)) : bool :=
  match ops with
  | [] => true
  | o :: r =>
    (match o with
     | OIns z | OInsU z | OInsR z => negb (existsb (Z.eqb (nd_id z)) (map nd_id live))
     | ORem id => existsb (Z.eqb id) (map nd_id live)
     end) && match astep zcmp a o with
             | Some (a', out) => legal_run a' (spec_next live o out) r
             | None => false
             end
  end.
Lemma legal_run_reach : forall ops a live a' live', reach zcmp a live -> legal_run a live ops = true ->
  arun a live ops = Some (a', live') -> reach zcmp a' live'.
Proof.
  induction ops as [|o r IH]; intros a live a' live' R L H; cbn [legal_run arun] in *.
  - injection H as <- <-. exact R.
  - apply andb_true_iff in L. destruct L as (Lo & Lr).
    destruct (astep zcmp a o) as [[a2 out]|] eqn:E; [|discriminate].
    apply (IH a2 (spec_next live o out)); auto. apply (RS _ _ a live o a2 out); auto.
    assert (X : forall i, existsb (Z.eqb i) (map nd_id live) = true <-> In i (map nd_id live)).
    { intros i. rewrite existsb_exists. split.
      - intros (j & Hj & Ej). apply Z.eqb_eq in Ej. now subst.
      - intros Hi. exists i. split; auto. apply Z.eqb_refl. }
    destruct o as [z|z|z|id]; cbn [legal]; try (apply negb_true_iff in Lo; rewrite <- X, Lo; discriminate).
    now apply X.
Qed.
Definition ex_state : option (avl Z * list (anode Z)) := Eval vm_compute in arun avl_empty [] ex_aops.
Definition ex_avl : avl Z := match ex_state with Some (a, _) => a | None => avl_empty end.
Definition ex_live : list (anode Z) := match ex_state with Some (_, l) => l | None => [] end.
Example C30_example :
  reach zcmp ex_avl ex_live /\
  option_map (map nd_key) (avl_walk ex_avl) = Some [10; 15; 20; 25; 30; 60; 70; 90] /\
  avl_find Z zcmp ex_avl 30 = Some (mkNd 30 7) /\ avl_find Z zcmp ex_avl 50 = None /\
  depth (a_root ex_avl) = 4 /\ avl_lower_bound Z zcmp ex_avl 26 = Some (mkNd 30 7).
Proof.
  split.
  - apply (legal_run_reach ex_aops avl_empty []); [constructor| |]; vm_compute; reflexivity.
  - vm_compute. auto 10.
Qed.

Print Assumptions C30_contents.
Print Assumptions C30_order.
Print Assumptions C30_bounds.
Print Assumptions C30_depth.
Print Assumptions C30_vaddr_order_refuted.
