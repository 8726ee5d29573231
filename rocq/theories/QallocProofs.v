(* The runs of pages of the pool of QallocModel.v: they tile the pool, no two free ones are next to each
   other, and the free list has exactly the free ones. *)
From Coq Require Import ZArith List Lia Bool Permutation.
From Verif Require Import Base QallocModel.
Import ListNotations.
Open Scope Z_scope.

Inductive kind := KFree | KMulti | KSlab (i : Z).
Definition isfree (k : kind) : bool := match k with KFree => true | _ => false end.
Definition chunk := (Z * Z * kind)%type.

(* the runs ch, in order, make up the pages s .. e-1 *)
Fixpoint Tl (pg : Z -> pgi) (prev : option Z) (s e : Z) (ch : list chunk) : Prop :=
  match ch with
  | [] => s = e
  | (s', n, k) :: r => s' = s /\ 0 < n /\ pg_count (pg s) = n /\ pg_free (pg s) = isfree k /\ pg_prev (pg s) = prev /\
                       Tl pg (Some s) (s + n) e r
  end.
Fixpoint lastp (prev : option Z) (ch : list chunk) : option Z :=
  match ch with [] => prev | (s, _, _) :: r => lastp (Some s) r end.
Fixpoint nadj (b : bool) (ch : list chunk) : Prop :=
  match ch with [] => True | (_, _, k) :: r => (b = true -> isfree k = false) /\ nadj (isfree k) r end.
Fixpoint lastf (b : bool) (ch : list chunk) : bool :=
  match ch with [] => b | (_, _, k) :: r => lastf (isfree k) r end.
Definition used (ch : list chunk) : list chunk := filter (fun x => negb (isfree (snd x))) ch.
Definition pages (ch : list chunk) : Z := zsum (map (fun x => snd (fst x)) ch).

Lemma Tl_app : forall pg a b prev s e, Tl pg prev s e (a ++ b) <-> exists m, Tl pg prev s m a /\ Tl pg (lastp prev a) m e b.
Proof.
  induction a as [|[[s0 n] k] a IH]; intros b prev s e; cbn [app Tl lastp].
  - split; [intros H; exists s; auto | intros (m & -> & H); exact H].
  - rewrite IH. split.
    + intros (-> & H1 & H2 & H3 & H4 & m & H5 & H6). exists m. tauto.
    + intros (m & (-> & H1 & H2 & H3 & H4 & H5) & H6). split; [reflexivity|]. do 4 (split; [assumption|]). exists m; tauto.
Qed.
Lemma Tl_ext : forall pg pg' ch prev s e,
  (forall p, s <= p < e -> pg_count (pg' p) = pg_count (pg p) /\ pg_free (pg' p) = pg_free (pg p) /\ pg_prev (pg' p) = pg_prev (pg p)) ->
  Tl pg prev s e ch -> s <= e /\ Tl pg' prev s e ch.
Proof.
  induction ch as [|[[s0 n] k] ch IH]; intros prev s e H; cbn [Tl].
  - intros ->. split; [lia | reflexivity].
  - intros (-> & H1 & H2 & H3 & H4 & H5).
    assert (L : s + n <= e).
    { clear - H5 H1. revert H5. generalize (Some s). generalize (s + n). clear.
      induction ch as [|[[s0 n] k] ch IH]; intros m pr; cbn [Tl]; [lia|].
      intros (_ & H1 & _ & _ & _ & H). apply IH in H. lia. }
    destruct (H s) as (Q1 & Q2 & Q3); [lia|].
    destruct (IH (Some s) (s + n) e) as (_ & G); [intros p Hp; apply H; lia | exact H5 |].
    split; [lia|]. rewrite Q1, Q2, Q3. tauto.
Qed.
Lemma Tl_le : forall pg ch prev s e, Tl pg prev s e ch -> s <= e.
Proof. intros pg ch prev s e H. apply (Tl_ext pg pg) in H; [tauto | intros; auto]. Qed.
Lemma Tl_in : forall pg ch prev s e s1 n k, Tl pg prev s e ch -> In (s1, n, k) ch ->
  s <= s1 /\ 0 < n /\ s1 + n <= e /\ pg_count (pg s1) = n /\ pg_free (pg s1) = isfree k.
Proof.
  induction ch as [|[[s0 n0] k0] ch IH]; intros prev s e s1 n k; cbn [Tl In]; [tauto|].
  intros (-> & H1 & H2 & H3 & H4 & H5) [E|H].
  - injection E as <- <- <-. apply Tl_le in H5. repeat split; try assumption; lia.
  - destruct (IH _ _ _ _ _ _ H5 H) as (? & ? & ? & ? & ?). repeat split; try assumption; lia.
Qed.
Lemma Tl_disj : forall pg ch prev s e s1 n1 k1 s2 n2 k2, Tl pg prev s e ch -> In (s1, n1, k1) ch -> In (s2, n2, k2) ch ->
  (s1, n1, k1) = (s2, n2, k2) \/ s1 + n1 <= s2 \/ s2 + n2 <= s1.
Proof.
  induction ch as [|[[s0 n0] k0] ch IH]; intros prev s e s1 n1 k1 s2 n2 k2; cbn [Tl In]; [tauto|].
  intros (-> & H1 & H2 & H3 & H4 & H5) [E|H] [E'|H'].
  - left; congruence.
  - injection E as <- <- <-. pose proof (Tl_in _ _ _ _ _ _ _ _ H5 H'). lia.
  - injection E' as <- <- <-. pose proof (Tl_in _ _ _ _ _ _ _ _ H5 H). lia.
  - exact (IH _ _ _ _ _ _ _ _ _ H5 H H').
Qed.
Lemma Tl_cover : forall pg ch prev s e p, Tl pg prev s e ch -> s <= p < e ->
  exists s1 n k, In (s1, n, k) ch /\ s1 <= p < s1 + n.
Proof.
  induction ch as [|[[s0 n0] k0] ch IH]; intros prev s e p; cbn [Tl]; [lia|].
  intros (-> & H1 & H2 & H3 & H4 & H5) Hp.
  destruct (Z_lt_dec p (s + n0)) as [L|L].
  - exists s, n0, k0. split; [left; reflexivity | lia].
  - destruct (IH _ _ _ p H5) as (s1 & n & k & Hin & Hb); [lia|]. exists s1, n, k. split; [right; exact Hin | exact Hb].
Qed.
Lemma Tl_nodup : forall pg ch prev s e, Tl pg prev s e ch -> NoDup (map (fun x => fst (fst x)) ch).
Proof.
  induction ch as [|[[s0 n0] k0] ch IH]; intros prev s e; cbn [Tl map]; [constructor|].
  intros (-> & H1 & H2 & H3 & H4 & H5). constructor; [|exact (IH _ _ _ H5)].
  intros H. apply in_map_iff in H as ([[s1 n1] k1] & E & Hin). cbn [fst] in E. subst s1.
  pose proof (Tl_in _ _ _ _ _ _ _ _ H5 Hin). cbn [fst] in *. lia.
Qed.
Lemma Tl_pages : forall pg ch prev s e, Tl pg prev s e ch -> pages ch = e - s.
Proof.
  unfold pages. induction ch as [|[[s0 n0] k0] ch IH]; intros prev s e; cbn [Tl map fst snd]; [cbn; lia|]. rewrite zsum_cons.
  intros (-> & H1 & H2 & H3 & H4 & H5). apply IH in H5. lia.
Qed.
(* the first run gets another run before it *)
Lemma Tl_reprev : forall pg pg' ch prev prev' s e,
  (forall p, s < p < e -> pg' p = pg p) ->
  (s < e -> pg' s = pg_set_prev (pg s) prev') ->
  Tl pg prev s e ch -> Tl pg' prev' s e ch.
Proof.
  intros pg pg' [|[[s0 n0] k0] ch] prev prev' s e H H'; cbn [Tl]; [auto|].
  intros (-> & H1 & H2 & H3 & H4 & H5). pose proof (Tl_le _ _ _ _ _ H5) as L.
  rewrite H' by lia. cbn [pg_set_prev pg_count pg_free pg_prev].
  do 5 (split; [assumption || reflexivity|]).
  apply (Tl_ext pg pg') in H5; [tauto|]. intros p Hp. rewrite H by lia. auto.
Qed.
Lemma nadj_app : forall a b f, nadj f (a ++ b) <-> nadj f a /\ nadj (lastf f a) b.
Proof. induction a as [|[[s n] k] a IH]; intros b f; cbn [app nadj lastf]; [tauto | rewrite IH; tauto]. Qed.
Lemma nadj_weak : forall ch f, nadj f ch -> nadj false ch.
Proof. intros [|[[s n] k] ch] f; cbn [nadj]; [tauto | intros [H1 H2]; split; [discriminate | exact H2]]. Qed.
Lemma used_app : forall a b, used (a ++ b) = used a ++ used b.
Proof. intros; apply filter_app. Qed.
Lemma in_used : forall ch s n k, In (s, n, k) (used ch) <-> In (s, n, k) ch /\ isfree k = false.
Proof. intros. unfold used. rewrite filter_In. cbn [snd]. rewrite negb_true_iff. tauto. Qed.
Lemma lastp_app : forall a b p, lastp p (a ++ b) = lastp (lastp p a) b.
Proof. induction a as [|[[s n] k] a IH]; intros; cbn [app lastp]; auto. Qed.
Lemma lastf_app : forall a b p, lastf p (a ++ b) = lastf (lastf p a) b.
Proof. induction a as [|[[s n] k] a IH]; intros; cbn [app lastf]; auto. Qed.

(* ---- lists of numbers ---- *)
Lemma mem_z_in : forall x l, mem_z x l = true <-> In x l.
Proof.
  intros. unfold mem_z. rewrite existsb_exists. split.
  - intros (y & H & E). apply Z.eqb_eq in E. subst; exact H.
  - intros H. exists x. split; [exact H | apply Z.eqb_refl].
Qed.
Lemma mem_z_notin : forall x l, ~ In x l -> mem_z x l = false.
Proof. intros x l H. destruct (mem_z x l) eqn:E; [apply mem_z_in in E; contradiction | reflexivity]. Qed.
Lemma in_del : forall x y l, In y (del_z x l) <-> In y l /\ y <> x.
Proof. intros. unfold del_z. rewrite filter_In, negb_true_iff, Z.eqb_neq. tauto. Qed.
Lemma nodup_filter : forall (f : Z -> bool) l, NoDup l -> NoDup (filter f l).
Proof. intros f l H. apply NoDup_filter. exact H. Qed.

(* ---- the pages of the pool ---- *)
Record Pages (N : Z) (pg : Z -> pgi) (l : list Z) (ch : list chunk) : Prop := mkPages {
  p_tl : Tl pg None 0 N ch;
  p_nadj : nadj false ch;
  p_nd : NoDup l;
  p_in : forall s, In s l <-> exists n, In (s, n, KFree) ch
}.
Definition sfields (pg pg' : Z -> pgi) : Prop :=
  forall p, pg_sidx (pg' p) = pg_sidx (pg p) /\ pg_snused (pg' p) = pg_snused (pg p) /\ pg_snelems (pg' p) = pg_snelems (pg p).
Lemma sfields_refl : forall pg, sfields pg pg.
Proof. intros pg p; auto. Qed.
Lemma sfields_trans : forall a b c, sfields a b -> sfields b c -> sfields a c.
Proof. intros a b c H1 H2 p. destruct (H1 p) as (? & ? & ?), (H2 p) as (? & ? & ?). repeat split; congruence. Qed.
Lemma sfields_upd : forall pg p i, pg_sidx i = pg_sidx (pg p) -> pg_snused i = pg_snused (pg p) -> pg_snelems i = pg_snelems (pg p) ->
  sfields pg (fset pg p i).
Proof. intros pg p i H1 H2 H3 x. unfold fset. destruct (x =? p) eqn:E; [apply Z.eqb_eq in E; subst|]; auto. Qed.

(* in a tiling, starts name runs *)
Lemma start_eq : forall pg ch prev s e x n k n' k', Tl pg prev s e ch -> In (x, n, k) ch -> In (x, n', k') ch -> n = n' /\ k = k'.
Proof.
  intros pg ch prev s e x n k n' k' T H H'.
  pose proof (Tl_in _ _ _ _ _ _ _ _ T H). pose proof (Tl_in _ _ _ _ _ _ _ _ T H').
  destruct (Tl_disj _ _ _ _ _ _ _ _ _ _ _ T H H') as [E|[E|E]]; [|lia|lia].
  assert (n = n') by congruence. assert (k = k') by congruence. auto.
Qed.
Section Pool.
Variable c : qconf.
Notation N := (c_npgs c).

Lemma next_some : forall p n, p + n < N -> next_pg c p n = Some (p + n).
Proof. intros. unfold next_pg. destruct (p + n <? N) eqn:E; [reflexivity | apply Z.ltb_ge in E; lia]. Qed.
Lemma next_none : forall p n, N <= p + n -> next_pg c p n = None.
Proof. intros. unfold next_pg. destruct (p + n <? N) eqn:E; [apply Z.ltb_lt in E; lia | reflexivity]. Qed.

(* what add_free does *)
Definition af_pg (pg : Z -> pgi) (p : Z) (prev : option Z) (n : Z) : Z -> pgi :=
  let f := fset pg p (pg_update (pg p) prev n) in
  if p + n <? N then fset f (p + n) (pg_set_prev (f (p + n)) (Some p)) else f.
Definition af_list (l : list Z) (p n : Z) : list Z := if MANY <=? n then p :: l else l ++ [p].
Lemma add_free_eq : forall p prev n s, ~ In p (q_list s) ->
  add_free c p prev n s = (set_list (set_pg s (af_pg (q_pg s) p prev n)) (af_list (q_list s) p n), ROk tt).
Proof.
  intros p prev n s H. unfold add_free, qbind, upd_pg, pool_update, link_pg, next_pg, af_pg, af_list.
  destruct (p + n <? N); unfold upd_pg; cbn [q_list set_pg q_pg qret]; rewrite (mem_z_notin _ _ H); reflexivity.
Qed.
Lemma af_sfields : forall pg p prev n, sfields pg (af_pg pg p prev n).
Proof.
  intros. unfold af_pg. destruct (p + n <? N).
  - eapply sfields_trans; apply sfields_upd; reflexivity.
  - apply sfields_upd; reflexivity.
Qed.
Lemma af_list_in : forall l p n x, In x (af_list l p n) <-> x = p \/ In x l.
Proof. intros. unfold af_list. destruct (MANY <=? n); cbn [In]; rewrite ?in_app_iff; cbn [In]; intuition congruence. Qed.
Lemma af_list_nd : forall l p n, NoDup l -> ~ In p l -> NoDup (af_list l p n).
Proof.
  intros. unfold af_list. destruct (MANY <=? n); [constructor; assumption|].
  apply (Permutation_NoDup (l := p :: l)); [apply Permutation_cons_append | constructor; assumption].
Qed.
(* a free run put between two others *)
Lemma af_tl : forall pg l1 l2 p n prev0,
  0 <= p -> 0 < n -> p + n <= N ->
  Tl pg None 0 p l1 -> Tl pg prev0 (p + n) N l2 ->
  Tl (af_pg pg p (lastp None l1) n) None 0 N (l1 ++ (p, n, KFree) :: l2).
Proof.
  intros pg l1 l2 p n prev0 P0 Hn PN T1 T2.
  apply Tl_app. exists p. split.
  - refine (proj2 (Tl_ext pg _ l1 _ _ _ _ T1)). intros x Hx. unfold af_pg.
    destruct (p + n <? N); rewrite ?fset_other by lia; auto.
  - cbn [Tl].
    assert (E : af_pg pg p (lastp None l1) n p = pg_update (pg p) (lastp None l1) n).
    { unfold af_pg. destruct (p + n <? N); rewrite ?(fset_other _ _ (p + n)) by lia; rewrite fset_same; reflexivity. }
    rewrite E. cbn [pg_update pg_count pg_free pg_prev isfree].
    do 5 (split; [assumption || reflexivity|]).
    refine (Tl_reprev pg _ l2 prev0 (Some p) (p + n) N _ _ T2).
    + intros x Hx. unfold af_pg. destruct (p + n <? N); rewrite ?fset_other by lia; reflexivity.
    + intros Hl. unfold af_pg. destruct (p + n <? N) eqn:E2; [|apply Z.ltb_ge in E2; lia].
      rewrite fset_same. rewrite fset_other by lia. reflexivity.
Qed.

(* ---- taking pages ---- *)
Lemma search_some : forall s n p ch, Pages N (q_pg s) (q_list s) ch -> search c s n = Some p ->
  exists l1 l2 m, ch = l1 ++ (p, m, KFree) :: l2 /\ n <= m.
Proof.
  intros s n p ch P H. unfold search in H. destruct (q_use s + n <=? N); [|discriminate].
  apply find_some in H as [H1 H2]. apply Z.leb_le in H2.
  assert (Hin : In p (q_list s)) by (destruct (MANY <=? n); [exact H1 | apply in_rev; exact H1]).
  apply (p_in _ _ _ _ P) in Hin as [m Hm].
  destruct (in_split _ _ Hm) as (l1 & l2 & E). exists l1, l2, m. split; [exact E|].
  pose proof (Tl_in _ _ _ _ _ _ _ _ (p_tl _ _ _ _ P) Hm). lia.
Qed.
Lemma search_none : forall s n ch, Pages N (q_pg s) (q_list s) ch -> search c s n = None ->
  N < q_use s + n \/ forall p m, In (p, m, KFree) ch -> m < n.
Proof.
  intros s n ch P H. unfold search in H. destruct (q_use s + n <=? N) eqn:E; [|left; apply Z.leb_gt in E; lia].
  right. intros p m Hm.
  assert (Hin : In p (q_list s)) by (apply (p_in _ _ _ _ P); exists m; exact Hm).
  assert (Hin' : In p (if MANY <=? n then q_list s else rev (q_list s))).
  { destruct (MANY <=? n); [exact Hin | apply in_rev; rewrite rev_involutive; exact Hin]. }
  pose proof (find_none _ _ H _ Hin') as F. cbv beta in F. apply Z.leb_gt in F.
  pose proof (Tl_in _ _ _ _ _ _ _ _ (p_tl _ _ _ _ P) Hm). lia.
Qed.
Lemma set_set_pg : forall s f l, q_pg (set_list (set_pg s f) l) = f. Proof. reflexivity. Qed.
Lemma alloc_some : forall s n k ch l1 l2 p m,
  Pages N (q_pg s) (q_list s) ch -> 0 < n -> isfree k = false ->
  ch = l1 ++ (p, m, KFree) :: l2 -> n <= m -> search c s n = Some p ->
  exists pg' l' ch', alloc_npgs c n s = (set_list (set_pg s pg') l', ROk (Some p)) /\
    Pages N pg' l' ch' /\ sfields (q_pg s) pg' /\
    used ch' = used l1 ++ (p, n, k) :: used l2.
Proof.
  intros s n k ch l1 l2 p m P Hn Hk E Hm Hs.
  pose proof (p_tl _ _ _ _ P) as T. rewrite E in T.
  apply Tl_app in T as (p' & T1 & T2). cbn [Tl] in T2. destruct T2 as (-> & Hm0 & C1 & C2 & C3 & T2).
  rename p' into p. pose proof (Tl_le _ _ _ _ _ T1) as L1. pose proof (Tl_le _ _ _ _ _ T2) as L2.
  pose proof (p_nadj _ _ _ _ P) as A. rewrite E in A. apply nadj_app in A as [A1 A2]. cbn [nadj isfree] in A2. destruct A2 as [A2 A3].
  assert (Pin : forall x q, In (x, q, KFree) ch <-> In (x, q, KFree) (l1 ++ l2) \/ (x = p /\ q = m)).
  { intros x q. rewrite E, !in_app_iff. cbn [In]. split; [intros [H|[H|H]]; [auto| right; split; congruence | auto]|].
    intros [[H|H]|[-> ->]]; auto. }
  assert (Np : forall q, ~ In (p, q, KFree) (l1 ++ l2)).
  { intros q H. apply in_app_iff in H as [H|H];
      [pose proof (Tl_in _ _ _ _ _ _ _ _ T1 H) | pose proof (Tl_in _ _ _ _ _ _ _ _ T2 H)]; lia. }
  unfold alloc_npgs, qbind at 1, qget at 1. rewrite Hs. unfold qbind at 1, unlink_pg. rewrite C1.
  destruct (Z.ltb_spec n m) as [Lt|Ge].
  - rewrite next_some by lia. unfold qbind at 1.
    assert (Nx : ~ In (p + n) (del_z p (q_list s))).
    { rewrite in_del. intros [H _]. apply (p_in _ _ _ _ P) in H as [q Hq].
      apply Pin in Hq as [Hq|[Hq _]]; [|lia].
      apply in_app_iff in Hq as [H|H]; [pose proof (Tl_in _ _ _ _ _ _ _ _ T1 H) | pose proof (Tl_in _ _ _ _ _ _ _ _ T2 H)]; lia. }
    rewrite add_free_eq by exact Nx. unfold qbind, upd_pg, qret.
    set (f := af_pg (q_pg s) (p + n) (Some p) (m - n)).
    exists (fset f p (pg_take (f p) n)), (af_list (del_z p (q_list s)) (p + n) (m - n)),
           (l1 ++ (p, n, k) :: (p + n, m - n, KFree) :: l2).
    split; [reflexivity|].
    assert (Fp : f p = q_pg s p).
    { unfold f, af_pg. destruct (p + n + (m - n) <? N); rewrite ?fset_other by lia; reflexivity. }
    split; [constructor|].
    + apply Tl_app. exists p. split.
      * refine (proj2 (Tl_ext (q_pg s) _ l1 _ _ _ _ T1)). intros x Hx. rewrite fset_other by lia. unfold f, af_pg.
        destruct (p + n + (m - n) <? N); rewrite ?fset_other by lia; auto.
      * cbn [Tl]. rewrite fset_same, Fp. cbn [pg_take pg_count pg_free pg_prev]. rewrite Hk.
        do 5 (split; [assumption || reflexivity|]).
        rewrite fset_other by lia.
        assert (Fn : f (p + n) = pg_update (q_pg s (p + n)) (Some p) (m - n)).
        { unfold f, af_pg. destruct (p + n + (m - n) <? N); rewrite ?(fset_other _ _ (p + n + (m - n))) by lia; rewrite fset_same; reflexivity. }
        rewrite Fn. cbn [pg_update pg_count pg_free pg_prev isfree].
        do 5 (split; [lia || reflexivity|]).
        replace (p + n + (m - n)) with (p + m) by lia.
        refine (Tl_reprev (q_pg s) _ l2 (Some p) (Some (p + n)) (p + m) N _ _ T2).
        -- intros x Hx. rewrite fset_other by lia. unfold f, af_pg. destruct (p + n + (m - n) <? N); rewrite ?fset_other by lia; reflexivity.
        -- intros Hl. rewrite fset_other by lia. unfold f, af_pg. destruct (p + n + (m - n) <? N) eqn:E2; [|apply Z.ltb_ge in E2; lia].
           replace (p + n + (m - n)) with (p + m) by lia. rewrite fset_same. rewrite fset_other by lia. reflexivity.
    + apply nadj_app. split; [exact A1|]. cbn [nadj isfree]. rewrite Hk. split; [auto|]. split; [discriminate|]. exact A3.
    + apply af_list_nd; [apply nodup_filter; exact (p_nd _ _ _ _ P) | exact Nx].
    + intros x. rewrite af_list_in, in_del, (p_in _ _ _ _ P). split.
      * intros [->|[[q Hq] Hx]].
        -- exists (m - n). apply in_app_iff. right. right. left. reflexivity.
        -- exists q. apply Pin in Hq as [Hq|[Hq _]]; [|contradiction]. rewrite in_app_iff in *. cbn [In]. tauto.
      * intros [q Hq]. apply in_app_iff in Hq as [Hq|[Hq|[Hq|Hq]]].
        -- right. split; [exists q; apply Pin; left; apply in_app_iff; auto|]. pose proof (Tl_in _ _ _ _ _ _ _ _ T1 Hq). lia.
        -- injection Hq as <- <- ->. discriminate.
        -- left. congruence.
        -- right. split; [exists q; apply Pin; left; apply in_app_iff; auto|]. pose proof (Tl_in _ _ _ _ _ _ _ _ T2 Hq). lia.
    + split.
      * eapply sfields_trans; [apply af_sfields|]. apply sfields_upd; reflexivity.
      * rewrite used_app. cbn [used filter snd isfree negb]. unfold used at 2 3. cbn [filter snd isfree negb]. rewrite Hk. reflexivity.
  - unfold qbind, upd_pg, qret. cbn [set_list q_pg].
    assert (n = m) by lia. subst n. rewrite C1.
    exists (fset (q_pg s) p (pg_take (q_pg s p) m)), (del_z p (q_list s)), (l1 ++ (p, m, k) :: l2).
    split; [reflexivity|]. split; [constructor|].
    + apply Tl_app. exists p. split.
      * refine (proj2 (Tl_ext (q_pg s) _ l1 _ _ _ _ T1)). intros x Hx. rewrite fset_other by lia. auto.
      * cbn [Tl]. rewrite fset_same. cbn [pg_take pg_count pg_free pg_prev]. rewrite Hk.
        do 5 (split; [assumption || reflexivity|]).
        refine (proj2 (Tl_ext (q_pg s) _ l2 _ _ _ _ T2)). intros x Hx. rewrite fset_other by lia. auto.
    + apply nadj_app. split; [exact A1|]. cbn [nadj]. rewrite Hk. split; [auto|]. exact (nadj_weak _ _ A3).
    + apply nodup_filter. exact (p_nd _ _ _ _ P).
    + intros x. rewrite in_del, (p_in _ _ _ _ P). split.
      * intros [[q Hq] Hx]. exists q. apply Pin in Hq as [Hq|[Hq _]]; [|contradiction]. rewrite in_app_iff in *. cbn [In]. tauto.
      * intros [q Hq]. apply in_app_iff in Hq as [Hq|[Hq|Hq]].
        -- split; [exists q; apply Pin; left; apply in_app_iff; auto|]. pose proof (Tl_in _ _ _ _ _ _ _ _ T1 Hq). lia.
        -- injection Hq as <- <- ->. discriminate.
        -- split; [exists q; apply Pin; left; apply in_app_iff; auto|]. pose proof (Tl_in _ _ _ _ _ _ _ _ T2 Hq). lia.
    + split; [apply sfields_upd; reflexivity|].
      rewrite used_app. unfold used at 2. cbn [filter snd]. rewrite Hk. reflexivity.
Qed.

(* ---- giving pages back ---- *)
(* a run p, n of pages with no kind, between the runs l1 and l2 *)
Record Gap (pg : Z -> pgi) (l : list Z) (l1 l2 : list chunk) (p n : Z) : Prop := mkGap {
  g_0 : 0 <= p; g_n : 0 < n; g_N : p + n <= N;
  g_1 : Tl pg None 0 p l1;
  g_2 : exists pr, Tl pg pr (p + n) N l2;
  g_prev : pg_prev (pg p) = lastp None l1;
  g_a1 : nadj false l1;
  g_a2 : nadj false l2;
  g_nd : NoDup l;
  g_in : forall x, In x l <-> exists q, In (x, q, KFree) (l1 ++ l2)
}.
Lemma gap_of : forall pg l l1 l2 p n k, isfree k = false -> Pages N pg l (l1 ++ (p, n, k) :: l2) -> Gap pg l l1 l2 p n.
Proof.
  intros pg l l1 l2 p n k Hk [T A ND I].
  apply Tl_app in T as (p' & T1 & T2). cbn [Tl] in T2. destruct T2 as (-> & Hm0 & C1 & C2 & C3 & T2).
  pose proof (Tl_le _ _ _ _ _ T1) as L1. pose proof (Tl_le _ _ _ _ _ T2) as L2.
  apply nadj_app in A as [A1 A2]. cbn [nadj] in A2. destruct A2 as [_ A2].
  constructor; try assumption.
  - exists (Some p'); exact T2.
  - exact (nadj_weak _ _ A2).
  - intros x. rewrite I. split; intros [q H]; exists q; rewrite in_app_iff in *; cbn [In] in *; [|tauto].
    destruct H as [H|[H|H]]; [auto | | auto]. injection H as <- <- ->. discriminate.
Qed.
Definition merge_next (p npgs : Z) : Q Z :=
  s <- qget ;;
  match next_pg c p npgs with
  | Some x => if pg_free (q_pg s x)
              then unlink_pg x ;;; upd_pg x pg_mute ;;; qret (npgs + pg_count (q_pg s x))
              else qret npgs
  | None => qret npgs
  end.
Definition merge_prev (p n1 : Z) : Q (Z * option Z * Z) :=
  s1 <- qget ;;
  match pg_prev (q_pg s1 p) with
  | Some x => if pg_free (q_pg s1 x)
              then upd_pg p pg_mute ;;; unlink_pg x ;;; upd_pg x pg_mute ;;;
                   qret (x, pg_prev (q_pg s1 x), n1 + pg_count (q_pg s1 x))
              else qret (p, Some x, n1)
  | None => qret (p, None, n1)
  end.
Lemma free_npgs_eq : forall p n flags s, free_npgs c p n flags s =
  (n1 <- merge_next p n ;; r <- merge_prev p n1 ;;
   let '(b, prev, m) := r in
   (if may_punch b m flags then s2 <- qget ;; qput (set_mem s2 (fill (q_mem s2) (b * PG) (m * PG) 0)) else qret tt) ;;;
   add_free c b prev m) s.
Proof. reflexivity. Qed.
Lemma mute_sfields : forall pg x, sfields pg (fset pg x (pg_mute (pg x))).
Proof. intros. apply sfields_upd; reflexivity. Qed.
Lemma merge_next_ok : forall s l1 l2 p n, Gap (q_pg s) (q_list s) l1 l2 p n ->
  exists pg' l' l2' n', merge_next p n s = (set_list (set_pg s pg') l', ROk n') /\
    Gap pg' l' l1 l2' p n' /\ nadj true l2' /\ used l2' = used l2 /\ sfields (q_pg s) pg' /\ n <= n'.
Proof.
  intros s l1 l2 p n G. destruct G as [H0 Hn HN T1 [pr T2] Hp A1 A2 ND I].
  assert (Same : set_list (set_pg s (q_pg s)) (q_list s) = s) by (destruct s; reflexivity).
  unfold merge_next, qbind at 1, qget.
  destruct l2 as [|[[x q] k2] l2].
  - cbn [Tl] in T2. rewrite next_none by lia. exists (q_pg s), (q_list s), [], n. rewrite Same.
    split; [reflexivity|]. split; [constructor; try assumption; exists pr; exact T2|].
    split; [exact Logic.I|]. split; [reflexivity|]. split; [apply sfields_refl | lia].
  - cbn [Tl] in T2. destruct T2 as (-> & Hq & C1 & C2 & C3 & T2).
    pose proof (Tl_le _ _ _ _ _ T2) as L2. rewrite next_some by lia. rewrite C2, C1.
    cbn [nadj] in A2. destruct A2 as [_ A2].
    destruct (isfree k2) eqn:K2.
    + assert (k2 = KFree) by (destruct k2; [reflexivity|discriminate|discriminate]). subst k2.
      unfold qbind, unlink_pg, upd_pg, qret. cbn [set_list set_pg q_pg q_list].
      exists (fset (q_pg s) (p + n) (pg_mute (q_pg s (p + n)))), (del_z (p + n) (q_list s)), l2, (n + q).
      split; [reflexivity|]. split; [constructor|].
      * exact H0.
      * lia.
      * lia.
      * refine (proj2 (Tl_ext (q_pg s) _ l1 _ _ _ _ T1)). intros y Hy. rewrite fset_other by lia. auto.
      * exists (Some (p + n)). replace (p + (n + q)) with (p + n + q) by lia.
        refine (proj2 (Tl_ext (q_pg s) _ l2 _ _ _ _ T2)). intros y Hy. rewrite fset_other by lia. auto.
      * rewrite fset_other by lia. exact Hp.
      * exact A1.
      * exact (nadj_weak _ _ A2).
      * apply nodup_filter. exact ND.
      * intros y. rewrite in_del, I. split.
        -- intros [[r Hr] Hy]. exists r. rewrite in_app_iff in *. cbn [In] in Hr. destruct Hr as [Hr|[Hr|Hr]]; [auto| |auto].
           exfalso. apply Hy. congruence.
        -- intros [r Hr]. split; [exists r; rewrite in_app_iff in *; cbn [In]; tauto|].
           apply in_app_iff in Hr as [Hr|Hr]; [pose proof (Tl_in _ _ _ _ _ _ _ _ T1 Hr) | pose proof (Tl_in _ _ _ _ _ _ _ _ T2 Hr)]; lia.
      * split; [exact A2|]. split; [reflexivity|]. split; [apply mute_sfields | lia].
    + exists (q_pg s), (q_list s), ((p + n, q, k2) :: l2), n. rewrite Same. unfold qret.
      split; [reflexivity|]. split; [constructor; try assumption|].
      * exists pr. cbn [Tl]. rewrite C1, C2, C3, K2. tauto.
      * cbn [nadj]. rewrite K2. split; [discriminate | exact A2].
      * split; [cbn [nadj]; rewrite K2; auto|]. split; [reflexivity|]. split; [apply sfields_refl | lia].
Qed.
Lemma merge_prev_ok : forall s l1 l2 p n, Gap (q_pg s) (q_list s) l1 l2 p n ->
  exists pg' l' l1' b n', merge_prev p n s = (set_list (set_pg s pg') l', ROk (b, lastp None l1', n')) /\
    Tl pg' None 0 b l1' /\ (exists pr, Tl pg' pr (b + n') N l2) /\ nadj false l1' /\ lastf false l1' = false /\
    NoDup l' /\ (forall x, In x l' <-> exists q, In (x, q, KFree) (l1' ++ l2)) /\
    used l1' = used l1 /\ sfields (q_pg s) pg' /\ 0 <= b <= p /\ p + n = b + n'.
Proof.
  intros s l1 l2 p n G. destruct G as [H0 Hn HN T1 [pr T2] Hp A1 A2 ND I].
  assert (Same : set_list (set_pg s (q_pg s)) (q_list s) = s) by (destruct s; reflexivity).
  unfold merge_prev, qbind at 1, qget. rewrite Hp.
  assert (E : l1 = [] \/ exists l0 x, l1 = l0 ++ [x]).
  { destruct l1 as [|y l1]; [left; reflexivity | right]. destruct (@exists_last _ (y :: l1)) as (l0 & x & E); [discriminate|].
    exists l0, x. exact E. }
  destruct E as [->|(l0 & [[x q] k1] & ->)].
  - cbn [lastp]. exists (q_pg s), (q_list s), [], p, n. rewrite Same. unfold qret.
    split; [reflexivity|]. split; [exact T1|]. split; [exists pr; exact T2|]. split; [exact Logic.I|].
    split; [reflexivity|]. split; [exact ND|]. split; [exact I|]. split; [reflexivity|]. split; [apply sfields_refl | lia].
  - rewrite lastp_app. cbn [lastp].
    apply Tl_app in T1 as (x' & T0 & T1). cbn [Tl] in T1. destruct T1 as (-> & Hq & C1 & C2 & C3 & E).
    rewrite C2, C1, C3. apply nadj_app in A1 as [A0 A1]. cbn [nadj] in A1. destruct A1 as [A1 _].
    pose proof (Tl_le _ _ _ _ _ T0) as L0.
    destruct (isfree k1) eqn:K1.
    + assert (k1 = KFree) by (destruct k1; [reflexivity|discriminate|discriminate]). subst k1.
      unfold qbind, unlink_pg, upd_pg, qret. cbn [set_list set_pg q_pg q_list].
      set (f := fset (q_pg s) p (pg_mute (q_pg s p))).
      exists (fset f x' (pg_mute (f x'))), (del_z x' (q_list s)), l0, x', (n + q).
      split; [reflexivity|]. unfold f.
      split. { refine (proj2 (Tl_ext (q_pg s) _ l0 _ _ _ _ T0)). intros y Hy. rewrite !fset_other by lia. auto. }
      split. { exists pr. replace (x' + (n + q)) with (p + n) by lia.
               refine (proj2 (Tl_ext (q_pg s) _ l2 _ _ _ _ T2)). intros y Hy. rewrite !fset_other by lia. auto. }
      split; [exact A0|].
      split. { destruct (lastf false l0) eqn:F; [specialize (A1 eq_refl); discriminate | reflexivity]. }
      split; [apply nodup_filter; exact ND|].
      split.
      { intros y. rewrite in_del, I. split.
        - intros [[r Hr] Hy]. exists r. rewrite !in_app_iff in *. cbn [In] in Hr.
          destruct Hr as [[Hr|[Hr|[]]]|Hr]; [auto| |auto]. exfalso. apply Hy. congruence.
        - intros [r Hr]. split; [exists r; rewrite !in_app_iff in *; cbn [In]; tauto|].
          apply in_app_iff in Hr as [Hr|Hr]; [pose proof (Tl_in _ _ _ _ _ _ _ _ T0 Hr) | pose proof (Tl_in _ _ _ _ _ _ _ _ T2 Hr)]; lia. }
      split; [rewrite used_app; cbn; rewrite app_nil_r; reflexivity|].
      split; [|lia]. eapply sfields_trans; [apply mute_sfields | apply mute_sfields].
    + exists (q_pg s), (q_list s), (l0 ++ [(x', q, k1)]), p, n. rewrite Same, lastp_app. unfold qret. cbn [lastp].
      split; [reflexivity|].
      split. { apply Tl_app. exists x'. split; [exact T0|]. cbn [Tl]. rewrite C1, C2, C3, K1. tauto. }
      split; [exists pr; exact T2|].
      split. { apply nadj_app. split; [exact A0|]. cbn [nadj]. tauto. }
      split; [rewrite lastf_app; cbn [lastf]; exact K1|]. split; [exact ND|]. split; [exact I|].
      split; [reflexivity|]. split; [apply sfields_refl | lia].
Qed.
Lemma free_ok : forall s l1 l2 p n k flags, isfree k = false ->
  Pages N (q_pg s) (q_list s) (l1 ++ (p, n, k) :: l2) ->
  exists pg' l' mem' ch' b m, free_npgs c p n flags s = (set_list (set_pg (set_mem s mem') pg') l', ROk tt) /\
    Pages N pg' l' ch' /\ used ch' = used l1 ++ used l2 /\ sfields (q_pg s) pg' /\
    In (b, m, KFree) ch' /\ (forall x, ~ (b * PG <= x < (b + m) * PG) -> mem' x = q_mem s x).
Proof.
  intros s l1 l2 p n k flags Hk P.
  pose proof (gap_of _ _ _ _ _ _ _ Hk P) as G. rewrite free_npgs_eq. unfold qbind at 1.
  destruct (merge_next_ok s l1 l2 p n G) as (pg1 & la & l2' & n1 & E1 & G1 & A2 & U2 & S1 & Ln). rewrite E1.
  set (s1 := set_list (set_pg s pg1) la). unfold qbind at 1.
  destruct (merge_prev_ok s1 l1 l2' p n1 G1) as (pg2 & lb & l1' & b & m & E2 & T1 & (pr & T2) & A1 & F1 & ND & I & U1 & S2 & Hb & Hm).
  rewrite E2. cbv iota beta. set (s2 := set_list (set_pg s1 pg2) lb).
  set (mem' := if may_punch b m flags then fill (q_mem s) (b * PG) (m * PG) 0 else q_mem s).
  pose proof (g_n _ _ _ _ _ _ G) as Hn. pose proof (Tl_le _ _ _ _ _ T2) as LN.
  assert (Nb : ~ In b lb).
  { intros H. apply I in H as [q Hq]. apply in_app_iff in Hq as [Hq|Hq];
      [pose proof (Tl_in _ _ _ _ _ _ _ _ T1 Hq) | pose proof (Tl_in _ _ _ _ _ _ _ _ T2 Hq)]; lia. }
  assert (Ex : qbind (if may_punch b m flags then s2 <- qget ;; qput (set_mem s2 (fill (q_mem s2) (b * PG) (m * PG) 0)) else qret tt)
                 (fun _ => add_free c b (lastp None l1') m) s2 = add_free c b (lastp None l1') m (set_mem s2 mem')).
  { unfold mem', qbind, qget, qput, qret. destruct (may_punch b m flags); [reflexivity|].
    unfold s2, s1. cbn [set_list set_pg set_mem q_pg q_list q_use q_slab q_bytes q_mem]. reflexivity. }
  rewrite Ex. rewrite add_free_eq by exact Nb.
  exists (af_pg pg2 b (lastp None l1') m), (af_list lb b m), mem', (l1' ++ (b, m, KFree) :: l2'), b, m.
  split; [reflexivity|].
  split; [constructor|].
  - apply (af_tl pg2 l1' l2' b m pr); [lia|lia|lia|exact T1|exact T2].
  - apply nadj_app. split; [exact A1|]. cbn [nadj isfree]. rewrite F1. split; [discriminate | exact A2].
  - apply af_list_nd; [exact ND | exact Nb].
  - intros x. rewrite af_list_in, I. split.
    + intros [->|[q Hq]]; [exists m; apply in_app_iff; right; left; reflexivity|].
      exists q. rewrite in_app_iff in *. cbn [In]. tauto.
    + intros [q Hq]. rewrite in_app_iff in Hq. cbn [In] in Hq. destruct Hq as [Hq|[Hq|Hq]].
      * right. exists q. apply in_app_iff; auto.
      * left. congruence.
      * right. exists q. apply in_app_iff; auto.
  - split. { rewrite used_app. unfold used at 2. cbn [filter snd isfree negb]. fold (used l2'). rewrite U1, U2. reflexivity. }
    split. { eapply sfields_trans; [exact S1|]. eapply sfields_trans; [exact S2 | apply af_sfields]. }
    split; [apply in_app_iff; right; left; reflexivity|].
    intros x Hx. unfold mem'. destruct (may_punch b m flags); [|reflexivity].
    unfold fill. destruct ((b * PG <=? x) && (x <? b * PG + m * PG)) eqn:E; [|reflexivity].
    apply andb_prop in E as [Ea Eb]. apply Z.leb_le in Ea. apply Z.ltb_lt in Eb. exfalso. apply Hx. lia.
Qed.

(* ---- the pool seen by its used runs ---- *)
Definition Pool (pg : Z -> pgi) (l : list Z) (U : list chunk) : Prop :=
  exists ch, Pages N pg l ch /\ Permutation (used ch) U.
Lemma pool_in : forall pg l U s n k, Pool pg l U -> In (s, n, k) U ->
  0 <= s /\ 0 < n /\ s + n <= N /\ isfree k = false /\ pg_count (pg s) = n /\ pg_free (pg s) = false.
Proof.
  intros pg l U s n k (ch & P & E) H. apply (Permutation_in _ (Permutation_sym E)) in H. apply in_used in H as [H Hk].
  pose proof (Tl_in _ _ _ _ _ _ _ _ (p_tl _ _ _ _ P) H) as (? & ? & ? & ? & ?). repeat split; try assumption. congruence.
Qed.
Lemma pool_disj : forall pg l U s n k s' n' k', Pool pg l U -> In (s, n, k) U -> In (s', n', k') U ->
  (s, n, k) = (s', n', k') \/ s + n <= s' \/ s' + n' <= s.
Proof.
  intros pg l U s n k s' n' k' (ch & P & E) H H'.
  apply (Permutation_in _ (Permutation_sym E)) in H. apply in_used in H as [H _].
  apply (Permutation_in _ (Permutation_sym E)) in H'. apply in_used in H' as [H' _].
  exact (Tl_disj _ _ _ _ _ _ _ _ _ _ _ (p_tl _ _ _ _ P) H H').
Qed.
Lemma pool_nodup : forall pg l U, Pool pg l U -> NoDup U.
Proof.
  intros pg l U (ch & P & E). apply (Permutation_NoDup E). apply NoDup_filter.
  apply (NoDup_map_inv (fun x => fst (fst x))). exact (Tl_nodup _ _ _ _ _ (p_tl _ _ _ _ P)).
Qed.
Lemma pages_used : forall ch, (forall s n k, In (s, n, k) ch -> 0 < n) -> pages (used ch) <= pages ch.
Proof.
  unfold pages. induction ch as [|[[s n] k] ch IH]; intros H; [cbn; lia|].
  assert (0 < n) by (apply (H s n k); left; reflexivity).
  specialize (IH (fun s n k Hi => H s n k (or_intror Hi))).
  unfold used. cbn [filter snd]. fold (used ch). destruct (negb (isfree k)); cbn [map fst snd]; rewrite ?zsum_cons; lia.
Qed.
Lemma zsum_perm : forall a b, Permutation a b -> zsum a = zsum b.
Proof. intros a b H. induction H; rewrite ?zsum_cons; lia. Qed.
Lemma pages_perm : forall a b, Permutation a b -> pages a = pages b.
Proof. intros a b H. unfold pages. apply zsum_perm. apply Permutation_map. exact H. Qed.
(* a free run of m pages leaves room *)
Lemma pages_free : forall ch p m, In (p, m, KFree) ch -> (forall s n k, In (s, n, k) ch -> 0 < n) -> pages (used ch) + m <= pages ch.
Proof.
  intros ch p m H Hp. destruct (in_split _ _ H) as (l1 & l2 & ->).
  rewrite used_app. unfold used at 2. cbn [filter snd isfree negb]. fold (used l2).
  pose proof (pages_used l1 (fun s n k Hi => Hp s n k (in_or_app _ _ _ (or_introl Hi)))).
  assert (pages (used l2) <= pages l2).
  { apply pages_used. intros s n k Hi. apply (Hp s n k). apply in_app_iff. right. right. exact Hi. }
  unfold pages in *. rewrite !map_app, !zsum_app. cbn [map fst snd]. rewrite zsum_cons. unfold chunk in *. lia.
Qed.
Lemma pool_cover : forall pg l U p, Pool pg l U -> 0 <= p < N ->
  (exists s, In s l /\ s <= p < s + pg_count (pg s)) <-> ~ exists s n k, In (s, n, k) U /\ s <= p < s + n.
Proof.
  intros pg l U p (ch & P & E) Hp. pose proof (p_tl _ _ _ _ P) as T. split.
  - intros (s & Hs & Hb) (s' & n & k & Hu & Hb').
    apply (p_in _ _ _ _ P) in Hs as [m Hm]. pose proof (Tl_in _ _ _ _ _ _ _ _ T Hm) as (? & ? & ? & C & _).
    apply (Permutation_in _ (Permutation_sym E)) in Hu. apply in_used in Hu as [Hu Hk].
    destruct (Tl_disj _ _ _ _ _ _ _ _ _ _ _ T Hm Hu) as [Q|[Q|Q]]; [|lia|lia].
    assert (k = KFree) by congruence. subst k. discriminate.
  - intros H. destruct (Tl_cover _ _ _ _ _ _ T Hp) as (s & n & k & Hin & Hb).
    destruct (isfree k) eqn:K.
    + assert (k = KFree) by (destruct k; [reflexivity|discriminate|discriminate]). subst k.
      exists s. pose proof (Tl_in _ _ _ _ _ _ _ _ T Hin) as (? & ? & ? & C & _). rewrite C.
      split; [apply (p_in _ _ _ _ P); exists n; exact Hin | exact Hb].
    + exfalso. apply H. exists s, n, k. split; [|exact Hb]. apply (Permutation_in _ E). apply in_used; auto.
Qed.
(* pages outside all used runs, next to each other, are in one free run *)
Lemma pool_run : forall pg l U a n, Pool pg l U -> 0 < n -> 0 <= a -> a + n <= N ->
  (forall p, a <= p < a + n -> ~ exists s m k, In (s, m, k) U /\ s <= p < s + m) ->
  exists s, In s l /\ s <= a /\ a + n <= s + pg_count (pg s).
Proof.
  intros pg l U a n (ch & P & E) Hn Ha HN Hfree. pose proof (p_tl _ _ _ _ P) as T.
  destruct (Tl_cover _ _ _ _ _ a T) as (s & m & k & Hin & Hb); [lia|].
  assert (Hk : k = KFree).
  { destruct (isfree k) eqn:K; [destruct k; [reflexivity|discriminate|discriminate]|].
    exfalso. apply (Hfree a); [lia|]. exists s, m, k. split; [|exact Hb]. apply (Permutation_in _ E). apply in_used; auto. }
  subst k. pose proof (Tl_in _ _ _ _ _ _ _ _ T Hin) as (? & ? & ? & C & _).
  exists s. split; [apply (p_in _ _ _ _ P); exists m; exact Hin|]. rewrite C. split; [lia|].
  destruct (Z_le_dec (a + n) (s + m)) as [L|L]; [exact L | exfalso].
  destruct (in_split _ _ Hin) as (l1 & l2 & Ec). pose proof T as T'. rewrite Ec in T'.
  apply Tl_app in T' as (s' & T1 & T2). cbn [Tl] in T2. destruct T2 as (-> & _ & _ & _ & _ & T2).
  pose proof (p_nadj _ _ _ _ P) as A. rewrite Ec in A. apply nadj_app in A as [_ A]. cbn [nadj isfree] in A. destruct A as [_ A].
  destruct l2 as [|[[x q] k2] l2]; cbn [Tl] in T2; [lia|]. destruct T2 as (-> & Hq & _).
  cbn [nadj] in A. destruct A as [A _]. specialize (A eq_refl).
  apply (Hfree (s' + m)); [lia|]. exists (s' + m), q, k2. split; [|lia].
  apply (Permutation_in _ E). apply in_used. split; [|exact A]. rewrite Ec. apply in_app_iff. right. right. left. reflexivity.
Qed.
Lemma pool_perm : forall pg l U U', Pool pg l U -> Permutation U U' -> Pool pg l U'.
Proof. intros pg l U U' (ch & P & E) H. exists ch. split; [exact P | exact (Permutation_trans E H)]. Qed.
Lemma pool_pages : forall pg l U, Pool pg l U -> pages U <= N.
Proof.
  intros pg l U (ch & P & E). rewrite <- (pages_perm _ _ E). pose proof (p_tl _ _ _ _ P) as T.
  pose proof (Tl_pages _ _ _ _ _ T). pose proof (pages_used ch). rewrite <- (Z.sub_0_r N), <- H. apply H0.
  intros s n k Hi. pose proof (Tl_in _ _ _ _ _ _ _ _ T Hi). lia.
Qed.
Lemma pool_pages_free : forall pg l U s, Pool pg l U -> In s l -> pages U + pg_count (pg s) <= N.
Proof.
  intros pg l U s (ch & P & E) H. rewrite <- (pages_perm _ _ E). pose proof (p_tl _ _ _ _ P) as T.
  pose proof (Tl_pages _ _ _ _ _ T). apply (p_in _ _ _ _ P) in H as [m Hm].
  pose proof (Tl_in _ _ _ _ _ _ _ _ T Hm) as (_ & _ & _ & C & _). rewrite C, <- (Z.sub_0_r N), <- H0.
  apply (pages_free ch s m Hm). intros x n k Hi. pose proof (Tl_in _ _ _ _ _ _ _ _ T Hi). lia.
Qed.
Lemma pool_alloc : forall s n k U, Pool (q_pg s) (q_list s) U -> 0 < n -> isfree k = false ->
  (exists pg' l' p, alloc_npgs c n s = (set_list (set_pg s pg') l', ROk (Some p)) /\
     Pool pg' l' ((p, n, k) :: U) /\ sfields (q_pg s) pg') \/
  (alloc_npgs c n s = (s, ROk None) /\ (N < q_use s + n \/ forall x, In x (q_list s) -> pg_count (q_pg s x) < n)).
Proof.
  intros s n k U (ch & P & E) Hn Hk. destruct (search c s n) as [p|] eqn:S.
  - left. destruct (search_some _ _ _ _ P S) as (l1 & l2 & m & Ec & Hm).
    destruct (alloc_some s n k ch l1 l2 p m P Hn Hk Ec Hm S) as (pg' & l' & ch' & E1 & P' & Sf & U').
    exists pg', l', p. split; [exact E1|]. split; [|exact Sf]. exists ch'. split; [exact P'|].
    rewrite U'. apply Permutation_sym. apply Permutation_cons_app. rewrite <- used_app.
    rewrite Ec in E. rewrite used_app in E. unfold used at 2 in E. cbn [filter snd isfree negb] in E. fold (used l2) in E.
    rewrite used_app. apply Permutation_sym. exact E.
  - right. split; [unfold alloc_npgs, qbind, qget; rewrite S; reflexivity|].
    destruct (search_none _ _ _ P S) as [H|H]; [left; exact H | right].
    intros x Hx. apply (p_in _ _ _ _ P) in Hx as [m Hm]. pose proof (H _ _ Hm).
    pose proof (Tl_in _ _ _ _ _ _ _ _ (p_tl _ _ _ _ P) Hm). lia.
Qed.
Lemma pool_free : forall s p n k U flags, Pool (q_pg s) (q_list s) ((p, n, k) :: U) ->
  exists pg' l' mem', free_npgs c p n flags s = (set_list (set_pg (set_mem s mem') pg') l', ROk tt) /\
    Pool pg' l' U /\ sfields (q_pg s) pg' /\
    (forall x, (exists s' m k', In (s', m, k') U /\ s' * PG <= x < (s' + m) * PG) -> mem' x = q_mem s x).
Proof.
  intros s p n k U flags (ch & P & E).
  assert (Hin : In (p, n, k) (used ch)) by (apply (Permutation_in _ (Permutation_sym E)); left; reflexivity).
  apply in_used in Hin as [Hin Hk]. destruct (in_split _ _ Hin) as (l1 & l2 & Ec).
  rewrite Ec in P. destruct (free_ok s l1 l2 p n k flags Hk P) as (pg' & l' & mem' & ch' & b & m & E1 & P' & U' & Sf & Hb & Hm).
  exists pg', l', mem'. split; [exact E1|].
  assert (PU : Permutation (used ch') U).
  { rewrite U'. apply (Permutation_cons_inv (a := (p, n, k))). rewrite Ec, used_app in E.
    unfold used at 2 in E. cbn [filter snd] in E. rewrite Hk in E. cbn [negb] in E. fold (used l2) in E.
    eapply Permutation_trans; [apply Permutation_cons_app; apply Permutation_refl | exact E]. }
  split; [exists ch'; auto|]. split; [exact Sf|].
  intros x (s' & q & k' & Hi & Hx). apply Hm. intros Hbx.
  apply (Permutation_in _ (Permutation_sym PU)) in Hi. apply in_used in Hi as [Hi Hk'].
  pose proof (p_tl _ _ _ _ P') as T.
  destruct (Tl_disj _ _ _ _ _ _ _ _ _ _ _ T Hb Hi) as [Q|[Q|Q]].
  - assert (k' = KFree) by congruence. subst. discriminate.
  - unfold PG in *. nia.
  - unfold PG in *. nia.
Qed.
Lemma pool_init : 0 < N -> exists pg l, q_init c = mkQ pg l 0 (fun _ => mkSlab [] 0 0) 0 (fun _ => 0) /\ Pool pg l [] /\
  (forall p, pg_sidx (pg p) = SIDX_NONE).
Proof.
  intros HN. unfold q_init. rewrite add_free_eq by (intros []). cbn [fst].
  unfold q_init0, set_list, set_pg. cbn [q_pg q_list q_use q_slab q_bytes q_mem].
  eexists _, _. split; [reflexivity|]. split.
  - exists [(0, N, KFree)]. split; [|constructor]. constructor.
    + apply (af_tl _ [] [] 0 N None); [lia|lia|lia|reflexivity|reflexivity].
    + cbn. auto.
    + apply af_list_nd; [constructor | intros []].
    + intros s. rewrite af_list_in. cbn [In]. split.
      * intros [->|[]]. exists N. auto.
      * intros [n [H|[]]]. left. congruence.
  - intros p. destruct (af_sfields (fun _ => pg_init) 0 None N p) as (-> & _). reflexivity.
Qed.
End Pool.
