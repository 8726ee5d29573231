(* C09: a directory is a map from names; C13: its entry count; C37: stream positions;
   C38: node positions. *)
From Verif Require Import Base DirNodeModel DirNodeProofs DirModel DirProofs ReaddirProofs.

(* ---------- specification ---------- *)
Inductive dop :=
| OAdd (name : bytes) (ino dt : Z) (orc : list (option Z))
| ODel (name : bytes) (seed : Z).

Definition dmap := bytes -> option (Z * Z).
Definition dput (m : dmap) (n : bytes) (v : option (Z * Z)) : dmap :=
  fun n' => if list_eq_dec Z.eq_dec n n' then v else m n'.
(* the map after a history: only operations that reported success count *)
Definition apply_op (m : dmap) (oe : dop * derr) : dmap :=
  match oe with
  | (OAdd n i t _, DOk) => dput m n (Some (i, t))
  | (ODel n _, DOk) => dput m n None
  | _ => m
  end.
Definition spec_map (h : list (dop * derr)) : dmap := fold_left apply_op h (fun _ => None).

(* a name of 1 to 255 bytes *)
Definition good_name (n : bytes) : Prop := 1 <= zlen n <= 255.
Definition legal_op (o : dop) : Prop :=
  match o with
  | OAdd _ i t _ => 0 < i < 2 ^ 64 /\ 0 <= t < 256
  | ODel _ _ => True
  end.

(* ---------- the model ---------- *)
Definition dstep (hashf : Z -> bytes -> Z) (st : dirst) (o : dop) : derr * dirst :=
  match o with
  | OAdd n i t orc => dir_add hashf st n i t orc
  | ODel n seed => dir_remove hashf st n seed
  end.
(* states reachable from a new directory (linked once, so with link count 2) by operations none of
   which killed the process *)
Inductive reach (hashf : Z -> bytes -> Z) : dirst -> list (dop * derr) -> Prop :=
| r_new : forall seed, reach hashf (new_dir seed 2) []
| r_step : forall st h o e st', reach hashf st h -> legal_op o -> dstep hashf st o = (e, st') -> e <> DFatal ->
    reach hashf st' (h ++ [(o, e)]).

(* some node lies at depth 4 or may: the index of the first such node is 266306 *)
Definition deep (st : dirst) : Prop := 266306 <= d_last st.
(* an unused address is available for one more node and no node index is near the limit *)
Definition can_grow (st : dirst) (orc : list (option Z)) : Prop :=
  d_last st < 262144 /\ exists a r, orc = Some a :: r /\ 0 <= a /\ d_nodes st a = None.

(* ---------- proof ---------- *)
Section P.
Variable hashf : Z -> bytes -> Z.
Notation di := (dinv hashf 2).
Lemma two_range : 0 <= 2 <= 2 ^ 32. Proof. lia. Qed.

Lemma in_fst : forall (m : list (bytes * (Z * Z))) n, In n (map fst m) <-> exists v, In (n, v) m.
Proof.
  intros m n. rewrite in_map_iff. split.
  - intros ((a & b) & E & H). cbn in E. subst. eauto.
  - intros (v & H). exists (n, v). auto.
Qed.

Lemma lookup_here : forall st am lm m n v, di st am lm m -> good_name n -> In (n, v) m ->
  dir_lookup hashf st n = (DOk, v).
Proof.
  intros st am lm m n v (I & _) L H. apply (i_in _ _ _ _ _ I) in H. destruct H as (i & s & e & S & <- & ->).
  destruct (lookup_dei_present hashf st am lm m i s e I S L) as (b & Hb & E). unfold dir_lookup. rewrite E.
  pose proof (i_tree _ _ _ _ _ I) as T. destruct (t_node _ _ _ T _ _ Hb) as (x & Hx & N). rewrite Hx.
  destruct (n_rep _ _ _ _ N) as (pos & R). destruct S as (_ & S).
  destruct (rep_fields _ _ _ R s e S) as (F1 & F2 & _). rewrite F1, F2. reflexivity.
Qed.
Lemma lookup_gone : forall st am lm m n, di st am lm m -> good_name n -> ~ In n (map fst m) ->
  dir_lookup hashf st n = (DNoEnt, (0, 0)) \/ (dir_lookup hashf st n = (DFatal, (0, 0)) /\ deep st).
Proof.
  intros st am lm m n (I & _) L H. unfold dir_lookup.
  destruct (lookup_dei_absent hashf st am lm m n I H L) as [->|(-> & D)]; auto.
Qed.
Lemma lookup_bad : forall st n, ~ good_name n ->
  dir_lookup hashf st n = (if zlen n =? 0 then DInval else DNameTooLong, (0, 0)).
Proof.
  intros st n H. unfold dir_lookup, lookup_dei, check_name. unfold good_name in H. pose proof (zlen_nonneg _ n).
  destruct (Z.eqb_spec (zlen n) 0); auto. destruct (Z.ltb_spec 255 (zlen n)); auto. lia.
Qed.

Lemma step_add : forall st am lm m n i t orc, di st am lm m -> 0 < i < 2 ^ 64 -> 0 <= t < 256 -> good_name n ->
  let '(e, st') := dir_add hashf st n i t orc in
  (In n (map fst m) -> e = DExist /\ st' = st) /\
  (~ In n (map fst m) ->
     (e = DOk /\ exists am' lm', di st' am' lm' ((n, (i, t)) :: m) /\ kept am lm am' lm') \/
     (st' = st /\ ((e = DMLink /\ DIR_ENTRIES_MAX <= zlen m) \/ (e = DNoSpc /\ ~ can_grow st orc) \/
                   (e = DFatal /\ deep st)))).
Proof.
  intros st am lm m n i t orc D Hi Ht L.
  destruct (in_dec (list_eq_dec Z.eq_dec) n (map fst m)) as [H|H].
  - pose proof H as H'. apply in_fst in H'. destruct H' as (v & V).
    unfold dir_add. rewrite (lookup_here _ _ _ _ _ _ D L V). split; [auto|]. intros Q. contradiction.
  - unfold dir_add. destruct (lookup_gone _ _ _ _ _ D L H) as [->|(-> & Dp)].
    + pose proof D as (I & _). rewrite (i_cnt _ _ _ _ _ I).
      destruct (Z.ltb_spec (zlen m) DIR_ENTRIES_MAX) as [Hm|Hm].
      * pose proof (add_dentry_ok hashf 2 two_range st am lm m n i t orc D L Hi Ht H Hm) as Q.
        destruct (add_dentry st n (hashf (d_seed st) n) i t orc) as [e st'].
        split; [intros; contradiction|]. intros _.
        destruct Q as [(Q1 & _ & Q2)|(Q1 & [(Q2 & Q3)|Q2])]; auto.
        right. split; auto. right. left. split; auto. intros (C1 & a & r & C2 & C3 & C4).
        apply Q3. split; auto. exists a, r. split; auto. split; auto.
      * split; [intros; contradiction|]. intros _. right. auto.
    + split; [intros; contradiction|]. intros _. right. auto.
Qed.

Lemma step_del : forall st am lm m n seed, di st am lm m -> good_name n ->
  let '(e, st') := dir_remove hashf st n seed in
  (In n (map fst m) -> e = DOk /\
     ((exists lm', di st' am lm' (del n m) /\
        forall i s g, sits am lm i s g -> e_name g <> n -> sits am lm' i s g) \/
      (del n m = [] /\ di st' (fun _ => None) (fun _ => []) []))) /\
  (~ In n (map fst m) -> st' = st /\ (e = DNoEnt \/ (e = DFatal /\ deep st))).
Proof.
  intros st am lm m n seed D L.
  destruct (in_dec (list_eq_dec Z.eq_dec) n (map fst m)) as [H|H].
  - pose proof H as H'. apply in_fst in H'. destruct H' as (v & V).
    pose proof (remove_dentry_ok hashf 2 two_range st am lm m n v seed D L V) as Q. unfold dir_remove.
    destruct (remove_dentry st n (hashf (d_seed st) n) seed) as [e st']. split; [|intros; contradiction].
    intros _. destruct Q as (Q1 & [(Q2 & _ & Q3)|(Q2 & Q3)]); split; auto.
    right. split; auto. tauto.
  - unfold dir_remove, remove_dentry. pose proof D as (I & _).
    destruct (lookup_dei_absent hashf st am lm m n I H L) as [->|(-> & Dp)];
      (split; [intros; contradiction|auto]).
Qed.

Lemma step_bad : forall st o, (match o with OAdd n _ _ _ => n | ODel n _ => n end) <> [] \/ True ->
  ~ good_name (match o with OAdd n _ _ _ => n | ODel n _ => n end) ->
  dstep hashf st o =
    (if zlen (match o with OAdd n _ _ _ => n | ODel n _ => n end) =? 0 then DInval else DNameTooLong, st).
Proof.
  intros st o _ H. destruct o as [n i t orc|n seed]; cbn [dstep].
  - unfold dir_add. rewrite lookup_bad by auto. destruct (zlen n =? 0); reflexivity.
  - unfold dir_remove, remove_dentry. pose proof (lookup_bad st n H) as Q. unfold dir_lookup in Q.
    destruct (lookup_dei st n (hashf (d_seed st) n)) as [a s|e].
    + destruct (d_nodes st a); [inversion Q; destruct (zlen n =? 0); discriminate|].
      inversion Q. destruct (zlen n =? 0); discriminate.
    + inversion Q. reflexivity.
Qed.

Lemma dput_same : forall m n v, dput m n v n = v.
Proof. intros. unfold dput. destruct (list_eq_dec Z.eq_dec n n); congruence. Qed.
Lemma dput_other : forall m n v n', n <> n' -> dput m n v n' = m n'.
Proof. intros. unfold dput. destruct (list_eq_dec Z.eq_dec n n'); congruence. Qed.

Definition shows (m : dmap) (l : list (bytes * (Z * Z))) : Prop := forall n v, m n = Some v <-> In (n, v) l.

Lemma nodup_fun : forall (l : list (bytes * (Z * Z))) n v w, NoDup (map fst l) -> In (n, v) l -> In (n, w) l -> v = w.
Proof.
  induction l as [|p l IH]; intros n v w N H1 H2; [contradiction|]. cbn [map] in N. inversion N as [|x y N1 N2]; subst.
  destruct H1 as [E1|H1]; destruct H2 as [E2|H2]; subst; cbn [fst] in *.
  - congruence.
  - exfalso. apply N1. apply in_fst. eauto.
  - exfalso. apply N1. apply in_fst. eauto.
  - eauto.
Qed.

Lemma shows_put : forall m l n v, shows m l -> ~ In n (map fst l) -> shows (dput m n (Some v)) ((n, v) :: l).
Proof.
  intros m l n v S H n' v'. destruct (list_eq_dec Z.eq_dec n n') as [<-|Hn].
  - rewrite dput_same. split.
    + intros E. inversion E. left. reflexivity.
    + intros [E|E]; [congruence|]. exfalso. apply H. apply in_fst. eauto.
  - rewrite dput_other by auto. rewrite (S n' v'). split; [intros; right; auto|].
    intros [E|E]; [congruence|auto].
Qed.
Lemma shows_del : forall m l n, shows m l -> shows (dput m n None) (del n l).
Proof.
  intros m l n S n' v'. rewrite del_in. destruct (list_eq_dec Z.eq_dec n n') as [<-|Hn].
  - rewrite dput_same. split; [discriminate|]. intros (_ & Q). congruence.
  - rewrite dput_other by auto. rewrite (S n' v'). split; [intros; split; auto|]. tauto.
Qed.

Lemma spec_snoc : forall h o e, spec_map (h ++ [(o, e)]) = apply_op (spec_map h) (o, e).
Proof. intros. unfold spec_map. rewrite fold_left_app. reflexivity. Qed.

(* one step: names, and the places of the entries which stay *)
Definition opname (o : dop) : bytes := match o with OAdd n _ _ _ => n | ODel n _ => n end.
Definition is_del (o : dop) (e : derr) (n : bytes) : Prop := e = DOk /\ exists seed, o = ODel n seed.
Lemma step_inv : forall st am lm m M o e st', di st am lm m -> shows M m -> (forall n, In n (map fst m) -> good_name n) ->
  legal_op o -> dstep hashf st o = (e, st') -> e <> DFatal ->
  exists am' lm' m', di st' am' lm' m' /\ shows (apply_op M (o, e)) m' /\ (forall n, In n (map fst m') -> good_name n) /\
    (m' = [] \/ ((forall i, am i <> None -> am' i <> None) /\
                 forall i s g, sits am lm i s g -> ~ is_del o e (e_name g) -> sits am' lm' i s g)).
Proof.
  intros st am lm m M o e st' D S G Ho Hs He.
  assert (Same : st' = st -> apply_op M (o, e) = M ->
    exists am' lm' m', di st' am' lm' m' /\ shows (apply_op M (o, e)) m' /\ (forall n, In n (map fst m') -> good_name n) /\
    (m' = [] \/ ((forall i, am i <> None -> am' i <> None) /\
                 forall i s g, sits am lm i s g -> ~ is_del o e (e_name g) -> sits am' lm' i s g))).
  { intros -> ->. exists am, lm, m. split; auto. }
  assert (Q : good_name (opname o) \/ ~ good_name (opname o)) by (unfold good_name; lia). destruct Q as [L|L].
  2:{ pose proof (step_bad st o (or_intror Logic.I) L) as Q. rewrite Hs in Q. inversion Q; subst. apply Same; auto.
      destruct o; cbn [apply_op opname]; destruct (zlen name =? 0); auto. }
  destruct o as [n i t orc|n seed]; cbn [dstep legal_op opname] in *.
  - destruct Ho as (Hi & Ht). pose proof (step_add st am lm m n i t orc D Hi Ht L) as Q. rewrite Hs in Q.
    destruct Q as (Q1 & Q2). destruct (in_dec (list_eq_dec Z.eq_dec) n (map fst m)) as [Hin|Hin].
    { destruct (Q1 Hin) as (-> & ->). apply Same; auto. }
    destruct (Q2 Hin) as [(-> & am' & lm' & D' & K1 & K2)|(-> & [(-> & _)|[(-> & _)|(-> & _)]])]; try (apply Same; auto; fail).
    exists am', lm', ((n, (i, t)) :: m). split; auto. split; [apply shows_put; auto|]. split.
    + intros n' [<-|Hn']; auto.
    + right. split; auto.
  - pose proof (step_del st am lm m n seed D L) as Q. rewrite Hs in Q. destruct Q as (Q1 & Q2).
    destruct (in_dec (list_eq_dec Z.eq_dec) n (map fst m)) as [Hin|Hin].
    + assert (G' : forall n', In n' (map fst (del n m)) -> good_name n').
      { intros n' Hn'. apply in_fst in Hn'. destruct Hn' as (v & Hv). apply del_in in Hv. apply G. apply in_fst.
        exists v. tauto. }
      destruct (Q1 Hin) as (-> & [(lm' & D' & K)|(E & D')]).
      * exists am, lm', (del n m). split; auto. split; [apply shows_del; auto|]. split; auto. right. split; auto.
        intros i s g Sg Nd. apply K; auto. intros E. apply Nd. split; auto. exists seed. rewrite E. reflexivity.
      * exists (fun _ => None), (fun _ => []), []. split; auto. split; [rewrite <- E; apply shows_del; auto|]. split; auto.
        contradiction.
    + destruct (Q2 Hin) as (-> & [->|(-> & _)]); apply Same; auto.
Qed.

Lemma reach_inv : forall st h, reach hashf st h ->
  exists am lm m, di st am lm m /\ shows (spec_map h) m /\
    (forall n, In n (map fst m) -> good_name n).
Proof.
  intros st h H. induction H as [seed|st h o e st' H IH Ho Hs He].
  - exists (fun _ => None), (fun _ => []), []. split; [|split].
    + apply (dinv_new hashf 2 seed (fun _ => None)). auto.
    + intros n v. split; [discriminate|contradiction].
    + contradiction.
  - destruct IH as (am & lm & m & D & S & G). rewrite spec_snoc.
    destruct (step_inv st am lm m (spec_map h) o e st' D S G Ho Hs He) as (am' & lm' & m' & H1 & H2 & H3 & _).
    exists am', lm', m'. auto.
Qed.

Lemma shows_in : forall m l n, shows m l -> m n <> None <-> In n (map fst l).
Proof.
  intros m l n S. rewrite in_fst. split.
  - destruct (m n) as [v|] eqn:E; [|congruence]. intros _. exists v. apply S. auto.
  - intros (v & H). apply S in H. congruence.
Qed.
Lemma shows_notin : forall m l n, shows m l -> m n = None -> ~ In n (map fst l).
Proof. intros m l n S E H. apply (shows_in _ _ _ S) in H. congruence. Qed.
End P.

(* ---------- theorems ---------- *)
(* The full claim is that an absent name is always reported as not found.  This part allows one
   exception: in a tree that reaches depth 4 the search may abort the process. *)
Theorem C09_lookup_partial : forall hashf st h n, reach hashf st h -> good_name n ->
  match spec_map h n with
  | Some v => dir_lookup hashf st n = (DOk, v)
  | None => fst (dir_lookup hashf st n) = DNoEnt \/ (fst (dir_lookup hashf st n) = DFatal /\ deep st)
  end.
Proof.
  intros hashf st h n H L. destruct (reach_inv hashf st h H) as (am & lm & m & D & S & _).
  destruct (spec_map h n) as [v|] eqn:E.
  - apply (lookup_here hashf st am lm m n v D L). apply S. exact E.
  - destruct (lookup_gone hashf st am lm m n D L (shows_notin _ _ _ S E)) as [->|(-> & Q)]; auto.
Qed.
Print Assumptions C09_lookup_partial.

(* In a directory without nodes at depth 4 it behaves exactly as a map. *)
Theorem C09_lookup_shallow : forall hashf st h n, reach hashf st h -> good_name n -> ~ deep st ->
  fst (dir_lookup hashf st n) = match spec_map h n with Some _ => DOk | None => DNoEnt end /\
  (forall v, spec_map h n = Some v -> snd (dir_lookup hashf st n) = v).
Proof.
  intros hashf st h n H L D. pose proof (C09_lookup_partial hashf st h n H L) as Q.
  destruct (spec_map h n) as [v|].
  - rewrite Q. split; auto. intros w E. inversion E. reflexivity.
  - split; [|discriminate]. destruct Q as [Q|(_ & Q)]; [auto|contradiction].
Qed.
Print Assumptions C09_lookup_shallow.

(* What additions and removals answer; a refused operation changes nothing. *)
Theorem C09_results_partial : forall hashf st h o e st', reach hashf st h -> legal_op o ->
  dstep hashf st o = (e, st') ->
  match o with
  | OAdd n i t orc =>
    (zlen n = 0 -> e = DInval /\ st' = st) /\ (255 < zlen n -> e = DNameTooLong /\ st' = st) /\
    (good_name n -> spec_map h n <> None -> e = DExist /\ st' = st) /\
    (good_name n -> spec_map h n = None ->
       e = DOk \/ (st' = st /\ ((e = DNoSpc /\ ~ can_grow st orc) \/ (e = DMLink /\ 480 * 2 ^ 24 <= d_ndents st) \/
                                (e = DFatal /\ deep st))))
  | ODel n _ =>
    (zlen n = 0 -> e = DInval /\ st' = st) /\ (255 < zlen n -> e = DNameTooLong /\ st' = st) /\
    (good_name n -> spec_map h n <> None -> e = DOk) /\
    (good_name n -> spec_map h n = None -> st' = st /\ (e = DNoEnt \/ (e = DFatal /\ deep st)))
  end.
Proof.
  intros hashf st h o e st' H Ho Hs. destruct (reach_inv hashf st h H) as (am & lm & m & D & S & _).
  assert (B : forall n, zlen n = 0 \/ 255 < zlen n -> ~ good_name n) by (unfold good_name; intros; lia).
  destruct o as [n i t orc|n seed]; cbn [legal_op] in *.
  - split; [|split; [|split]].
    + intros Z0. rewrite (step_bad hashf st (OAdd n i t orc)) in Hs by auto. rewrite Z0 in Hs. inversion Hs. auto.
    + intros Z0. rewrite (step_bad hashf st (OAdd n i t orc)) in Hs by auto.
      destruct (Z.eqb_spec (zlen n) 0); [lia|]. inversion Hs. auto.
    + intros L M. destruct Ho as (Hi & Ht). pose proof (step_add hashf st am lm m n i t orc D Hi Ht L) as Q.
      cbn [dstep] in Hs. rewrite Hs in Q. destruct Q as (Q & _). apply Q. apply (shows_in _ _ _ S). exact M.
    + intros L M. destruct Ho as (Hi & Ht). pose proof (step_add hashf st am lm m n i t orc D Hi Ht L) as Q.
      cbn [dstep] in Hs. rewrite Hs in Q. destruct Q as (_ & Q).
      destruct (Q (shows_notin _ _ _ S M)) as [(-> & _)|(-> & [(-> & Q2)|[(-> & Q2)|(-> & Q2)]])].
      * left. reflexivity.
      * right. split; [reflexivity|]. right. left. split; auto. destruct D as (I & _). rewrite (i_cnt _ _ _ _ _ I).
        unfold DIR_ENTRIES_MAX, DTREE_INDEX_MAX in Q2. lia.
      * right. split; [reflexivity|]. left. auto.
      * right. split; [reflexivity|]. right. right. auto.
  - split; [|split; [|split]].
    + intros Z0. rewrite (step_bad hashf st (ODel n seed)) in Hs by auto. rewrite Z0 in Hs. inversion Hs. auto.
    + intros Z0. rewrite (step_bad hashf st (ODel n seed)) in Hs by auto.
      destruct (Z.eqb_spec (zlen n) 0); [lia|]. inversion Hs. auto.
    + intros L M. pose proof (step_del hashf st am lm m n seed D L) as Q.
      cbn [dstep] in Hs. rewrite Hs in Q. destruct Q as (Q & _). apply Q. apply (shows_in _ _ _ S). exact M.
    + intros L M. pose proof (step_del hashf st am lm m n seed D L) as Q.
      cbn [dstep] in Hs. rewrite Hs in Q. destruct Q as (_ & Q). apply Q. apply (shows_notin _ _ _ S M).
Qed.
Print Assumptions C09_results_partial.

(* An addition that can get memory always succeeds. *)
Theorem C09_add_succeeds : forall hashf st h n i t orc, reach hashf st h -> legal_op (OAdd n i t orc) ->
  good_name n -> spec_map h n = None -> can_grow st orc -> d_ndents st < 480 * 2 ^ 24 ->
  fst (dir_add hashf st n i t orc) = DOk.
Proof.
  intros hashf st h n i t orc H Ho L M C Hm.
  destruct (dir_add hashf st n i t orc) as [e st'] eqn:E.
  pose proof (C09_results_partial hashf st h (OAdd n i t orc) e st' H Ho E) as (_ & _ & _ & Q).
  destruct (Q L M) as [->|(_ & [(_ & Q2)|[(_ & Q2)|(_ & Q2)]])]; auto; try contradiction; try lia.
  destruct C. unfold deep in Q2. lia.
Qed.
Print Assumptions C09_add_succeeds.

(* 113 names of 255 bytes with equal hashes fill the nodes at depths 0 to 3 and open one at depth 4;
   looking up any other name then kills the process. *)
Definition long_name (k : nat) : bytes := Z.of_nat k :: repeat 97 254.
Definition deep_ops : list dop :=
  map (fun k => OAdd (long_name k) (Z.of_nat k + 2) 8 [Some (Z.of_nat k * 8192)]) (seq 0 113).
Fixpoint run (hashf : Z -> bytes -> Z) (st : dirst) (os : list dop) : list (dop * derr) * dirst :=
  match os with
  | [] => ([], st)
  | o :: r => let (e, st1) := dstep hashf st o in let (tr, st2) := run hashf st1 r in ((o, e) :: tr, st2)
  end.
Definition alive (tr : list (dop * derr)) : bool :=
  forallb (fun oe => match snd oe with DFatal => false | _ => true end) tr.
Lemma run_reach : forall hashf os st h, reach hashf st h -> Forall legal_op os ->
  alive (fst (run hashf st os)) = true -> reach hashf (snd (run hashf st os)) (h ++ fst (run hashf st os)).
Proof.
  intros hashf. induction os as [|o os IH]; intros st h H L; cbn [run].
  - intros _. cbn [fst snd]. rewrite app_nil_r. exact H.
  - inversion L; subst. destruct (dstep hashf st o) as [e st1] eqn:E.
    specialize (IH st1 (h ++ [(o, e)])). rewrite <- app_assoc in IH. cbn [app] in IH.
    destruct (run hashf st1 os) as [tr st2]. cbn [fst snd] in *. unfold alive. cbn [forallb snd].
    intros F. apply andb_prop in F. destruct F as (F1 & F2). apply IH; auto.
    apply (r_step hashf st h o e st1); auto. intros ->. discriminate.
Qed.
Lemma run_reach0 : forall hashf os seed, Forall legal_op os -> alive (fst (run hashf (new_dir seed 2) os)) = true ->
  reach hashf (snd (run hashf (new_dir seed 2) os)) (fst (run hashf (new_dir seed 2) os)).
Proof. intros hashf os seed L A. exact (run_reach hashf os (new_dir seed 2) [] (r_new _ seed) L A). Qed.
Notation deep_run := (run (fun _ _ => 0) (new_dir 0 2) deep_ops).
(* one computation for all that is used of this run *)
Definition err_is (e f : derr) : bool :=
  match e, f with
  | DOk, DOk | DNoEnt, DNoEnt | DFatal, DFatal => true
  | _, _ => false
  end.
Lemma err_is_eq : forall e f, err_is e f = true -> e = f.
Proof. intros [] []; cbn; congruence. Qed.
Definition deep_facts (tr : list (dop * derr)) (st : dirst) : bool :=
  forallb (fun oe => err_is (snd oe) DOk) tr &&
  err_is (fst (dir_lookup (fun _ _ => 0) st (long_name 200))) DFatal &&
  forallb (fun oe => match fst oe with OAdd n _ _ _ => negb (hd 0 n =? 200) | _ => true end) tr &&
  match d_nodes st (d_root st), d_nodes st (112 * 8192) with
  | Some root, Some n =>
    (dn_index n =? 266306) && match dtn_search n (long_name 112) 0 with Some _ => true | None => false end &&
    match stage_by_index st root 266306 with SErr e => err_is e DNoEnt | SNode _ => false end
  | _, _ => false
  end.
Lemma deep_computed : (let (tr, st) := deep_run in deep_facts tr st) = true.
Proof. vm_compute. reflexivity. Qed.
Lemma deep_run_ok : forallb (fun oe => err_is (snd oe) DOk) (fst deep_run) = true /\
  fst (dir_lookup (fun _ _ => 0) (snd deep_run) (long_name 200)) = DFatal /\
  forallb (fun oe => match fst oe with OAdd n _ _ _ => negb (hd 0 n =? 200) | _ => true end) (fst deep_run) = true /\
  (exists root n, d_nodes (snd deep_run) (d_root (snd deep_run)) = Some root /\
     d_nodes (snd deep_run) (112 * 8192) = Some n /\ dn_index n = 266306 /\
     dtn_search n (long_name 112) 0 <> None /\ stage_by_index (snd deep_run) root 266306 = SErr DNoEnt).
Proof.
  pose proof deep_computed as E. destruct deep_run as [tr st]. unfold deep_facts in E. cbn [fst snd].
  apply andb_prop in E. destruct E as (E & E4). apply andb_prop in E. destruct E as (E & E3).
  apply andb_prop in E. destruct E as (E1 & E2). split; [exact E1|]. split; [apply err_is_eq; exact E2|].
  split; [exact E3|]. destruct (d_nodes st (d_root st)) as [root|]; [|discriminate].
  destruct (d_nodes st (112 * 8192)) as [n|]; [|discriminate]. exists root, n.
  apply andb_prop in E4. destruct E4 as (E4 & E5). apply andb_prop in E4. destruct E4 as (E4 & E6). split; [reflexivity|]. split; [reflexivity|].
  split; [apply Z.eqb_eq; exact E4|].
  split; [intros Q; rewrite Q in E6; discriminate|]. destruct (stage_by_index st root 266306); [discriminate|].
  f_equal. apply err_is_eq. exact E5.
Qed.
Lemma deep_legal : Forall legal_op deep_ops.
Proof.
  unfold deep_ops. apply Forall_forall. intros o H. apply in_map_iff in H. destruct H as (k & <- & H).
  apply in_seq in H. cbn [legal_op]. lia.
Qed.
Lemma ok_alive : forall tr, forallb (fun oe : dop * derr => err_is (snd oe) DOk) tr = true -> alive tr = true.
Proof.
  intros tr F. unfold alive. rewrite forallb_forall in F. apply forallb_forall.
  intros x Hx. specialize (F x Hx). destruct (snd x); auto; discriminate.
Qed.
Lemma deep_alive : alive (fst deep_run) = true.
Proof. exact (ok_alive _ (proj1 deep_run_ok)). Qed.
Lemma deep_reach : reach (fun _ _ => 0) (snd deep_run) (fst deep_run).
Proof. exact (run_reach0 (fun _ _ => 0) deep_ops 0 deep_legal deep_alive). Qed.
Lemma deep_absent : spec_map (fst deep_run) (long_name 200) = None.
Proof.
  pose proof deep_run_ok as (_ & _ & F & _). revert F. generalize (fst deep_run). intros l.
  assert (G : forall m : dmap, m (long_name 200) = None ->
    forallb (fun oe : dop * derr => match fst oe with OAdd n _ _ _ => negb (hd 0 n =? 200) | _ => true end) l = true ->
    fold_left apply_op l m (long_name 200) = None).
  { induction l as [|oe l IH]; intros m Hm F; auto. cbn [forallb] in F. apply andb_prop in F. destruct F as (F1 & F2).
    cbn [fold_left]. apply IH; auto. destruct oe as [[n i t orc|n seed] e]; cbn [fst] in F1; destruct e; cbn [apply_op]; auto.
    - rewrite dput_other; auto. intros ->. discriminate.
    - unfold dput. destruct (list_eq_dec Z.eq_dec n (long_name 200)); auto. }
  apply G. reflexivity.
Qed.
Theorem C09_absent_lookup_refuted : exists hashf st h n,
  reach hashf st h /\ good_name n /\ spec_map h n = None /\ fst (dir_lookup hashf st n) = DFatal.
Proof.
  exists (fun _ _ => 0), (snd deep_run), (fst deep_run), (long_name 200).
  split; [exact deep_reach|]. split; [unfold good_name; vm_compute; split; discriminate|].
  split; [exact deep_absent|]. apply deep_run_ok.
Qed.
Print Assumptions C09_absent_lookup_refuted.

(* a directory with two of three added names left, in a non-constant hash *)
Definition ex_hash (_ : Z) (n : bytes) : Z := fold_left (fun a c => a * 31 + c) n 7.
Definition ex_ops : list dop :=
  [OAdd [97] 10 8 [Some 0]; OAdd [98; 99] 11 4 [Some 8192]; OAdd [97] 12 8 []; ODel [97] 5; OAdd [100] 13 8 []; ODel [120] 3].
Notation ex_run := (run ex_hash (new_dir 99 2) ex_ops).
Lemma ex_reach : reach ex_hash (snd ex_run) (fst ex_run).
Proof.
  apply (run_reach0 ex_hash ex_ops 99).
  - repeat (constructor; [cbn [legal_op]; lia|]). constructor.
  - vm_compute. reflexivity.
Qed.
Example C09_example : map snd (fst ex_run) = [DOk; DOk; DExist; DOk; DOk; DNoEnt] /\
  reach ex_hash (snd ex_run) (fst ex_run) /\
  dir_lookup ex_hash (snd ex_run) [98; 99] = (DOk, (11, 4)) /\ spec_map (fst ex_run) [98; 99] = Some (11, 4) /\
  fst (dir_lookup ex_hash (snd ex_run) [97]) = DNoEnt /\ spec_map (fst ex_run) [97] = None /\
  ~ deep (snd ex_run) /\ can_grow (snd ex_run) [Some 8192] /\ d_ndents (snd ex_run) = 2.
Proof.
  split; [vm_compute; reflexivity|]. split; [exact ex_reach|].
  split; [vm_compute; reflexivity|]. split; [vm_compute; reflexivity|]. split; [vm_compute; reflexivity|].
  split; [vm_compute; reflexivity|]. split; [unfold deep; vm_compute; congruence|].
  split; [|vm_compute; reflexivity]. split; [vm_compute; reflexivity|]. exists 8192, []. split; auto. split; [lia|].
  vm_compute. reflexivity.
Qed.

(* ---------- C13 ---------- *)
(* The recorded count is the number of names present. *)
Theorem C13_count : forall hashf st h, reach hashf st h ->
  exists l, NoDup l /\ (forall n, In n l <-> spec_map h n <> None) /\ d_ndents st = zlen l.
Proof.
  intros hashf st h H. destruct (reach_inv hashf st h H) as (am & lm & m & D & S & _).
  exists (map fst m). pose proof D as (I & _). split; [exact (i_nod _ _ _ _ _ I)|].
  split; [intros n; symmetry; apply (shows_in _ _ _ S)|].
  rewrite (i_cnt _ _ _ _ _ I). unfold zlen. rewrite map_length. reflexivity.
Qed.
Print Assumptions C13_count.

(* The emptiness test which gates removal of a directory holds exactly when no name is present. *)
Lemma ndirs_nonneg : forall m, 0 <= ndirs m.
Proof. intros m. unfold ndirs. apply zlen_nonneg. Qed.
Theorem C13_isempty : forall hashf st h, reach hashf st h ->
  (dir_isempty st = true <-> forall n, spec_map h n = None).
Proof.
  intros hashf st h H. destruct (reach_inv hashf st h H) as (am & lm & m & D & S & _).
  destruct D as (I & _ & N). unfold dir_isempty. rewrite (i_cnt _ _ _ _ _ I), N. split.
  - intros E n. apply andb_prop in E. destruct E as (_ & E).
    destruct (Z.ltb_spec 0 (zlen m)); [discriminate|].
    destruct m as [|p m]; [|unfold zlen in *; cbn [length] in *; lia].
    destruct (spec_map h n) as [v|] eqn:Q; auto. apply S in Q. contradiction.
  - intros E. destruct m as [|[n v] m]; [reflexivity|]. assert (Q : spec_map h n = Some v) by (apply S; left; auto).
    rewrite E in Q. discriminate.
Qed.
Print Assumptions C13_isempty.

(* An emptied directory is in the state of a new one: it has no node left. *)
Theorem C13_pristine : forall hashf st h, reach hashf st h -> (forall n, spec_map h n = None) ->
  d_root st = NULL_OFF /\ d_last st = 0 /\ d_ndents st = 0 /\ d_nlink st = 2 /\ (forall a, d_nodes st a = None).
Proof.
  intros hashf st h H E. destruct (reach_inv hashf st h H) as (am & lm & m & D & S & _).
  destruct D as (I & Em & N).
  assert (m = []). { destruct m as [|[n v] m]; auto. assert (Q : spec_map h n = Some v) by (apply S; left; auto).
    rewrite E in Q. discriminate. }
  subst m. specialize (Em eq_refl). pose proof (i_tree _ _ _ _ _ I) as T.
  assert (A : forall k i, (Z.to_nat i <= k)%nat -> am i = None).
  { induction k; intros i Hk.
    - destruct (am i) as [a|] eqn:Q; auto. destruct (t_idx _ _ _ T _ _ Q). lia.
    - destruct (am i) as [a|] eqn:Q; auto. destruct (t_idx _ _ _ T _ _ Q).
      destruct (t_up _ _ _ T i) as [->|U]; [congruence|congruence|].
      destruct (Z.eq_dec i 1) as [->|Hi]; [congruence|]. exfalso. apply U. apply IHk.
      pose proof (parent_pos i). lia. }
  split; [|split; [|split; [|split]]].
  - rewrite (i_root _ _ _ _ _ I), Em. reflexivity.
  - pose proof (i_last0 _ _ _ _ _ I) as L0. tauto.
  - rewrite (i_cnt _ _ _ _ _ I). reflexivity.
  - rewrite N. reflexivity.
  - intros a. destruct (d_nodes st a) as [n|] eqn:Q; auto. destruct (t_all _ _ _ T _ _ Q) as (i & Hi).
    rewrite (A (Z.to_nat i) i) in Hi by lia. discriminate.
Qed.
Print Assumptions C13_pristine.
Example C13_example :
  let r := run ex_hash (new_dir 99 2) (ex_ops ++ [ODel [98; 99] 7; ODel [100] 8]) in
  dir_isempty (snd r) = true /\ d_ndents (snd r) = 0 /\ d_root (snd r) = NULL_OFF /\ d_seed (snd r) = 8 /\
  dir_isempty (snd ex_run) = false.
Proof. vm_compute. repeat split. Qed.

(* ---------- C37 ---------- *)
(* Positions of entries: a node index up to 2^24 and a slot below 480 (the number of entries of a
   node).  Every position is above those of "." and ".." (0 and 1) and fits a signed 64-bit offset.
   Node and slot are recovered from the position itself, and the entry after it is the first one
   whose position is at least the next number, from which a listing resumes. *)
Definition ent_pos (i s : Z) : Prop := 1 <= i <= 2 ^ 24 /\ 0 <= s < 480.

Theorem C37_positions : forall i s, ent_pos i s ->
  1 < make_doffset i s /\ make_doffset i s + 1 < 2 ^ 63 /\
  doff_to_index (make_doffset i s) = i /\ doff_to_slot (make_doffset i s) = s /\
  doff_to_index (make_doffset i s + 1) = i /\ doff_to_slot (make_doffset i s + 1) = s.
Proof.
  intros i s (Hi & Hs). rewrite doffset_val by lia.
  split; [lia|]. split; [lia|]. rewrite !dindex_val, !dslot_val by lia.
  replace (((i * 8192 + s) * 4 + 2) / 32768) with i by lia.
  replace (((i * 8192 + s) * 4 + 2 + 1) / 32768) with i by lia.
  destruct (Z.leb_spec i (2 ^ 24)); lia.
Qed.
Print Assumptions C37_positions.
Theorem C37_order : forall i s j t, ent_pos i s -> ent_pos j t ->
  (make_doffset i s < make_doffset j t <-> i < j \/ (i = j /\ s < t)) /\
  (make_doffset i s + 1 <= make_doffset j t <-> make_doffset i s < make_doffset j t).
Proof. intros i s j t (Hi & Hs) (Hj & Ht). rewrite !doffset_val by lia. lia. Qed.
Print Assumptions C37_order.
Theorem C37_distinct : forall i s j t, ent_pos i s -> ent_pos j t ->
  make_doffset i s = make_doffset j t -> i = j /\ s = t.
Proof. intros i s j t (Hi & Hs) (Hj & Ht). rewrite !doffset_val by lia. lia. Qed.
Print Assumptions C37_distinct.
(* all entries of a directory are at such positions *)
Theorem C37_entries : forall hashf st h a n s, reach hashf st h -> d_nodes st a = Some n ->
  (s < Z.to_nat (dn_nde n))%nat -> ent_pos (dn_index n) (Z.of_nat s).
Proof.
  intros hashf st h a n s H Hn Hs. destruct (reach_inv hashf st h H) as (am & lm & m & (I & _) & _ & _).
  pose proof (i_tree _ _ _ _ _ I) as T. destruct (t_all _ _ _ T _ _ Hn) as (i & Hi).
  destruct (t_node _ _ _ T _ _ Hi) as (n' & Hn' & N). rewrite Hn in Hn'. inversion Hn'; subst n'.
  destruct (t_idx _ _ _ T _ _ Hi) as (Q & _). rewrite (n_idx _ _ _ _ N). unfold DTREE_INDEX_MAX in Q.
  split; [lia|]. destruct (n_rep _ _ _ _ N) as (pos & R). pose proof (r_fit _ _ _ R). pose proof (r_nnb _ _ _ R). pose proof (names_len_nonneg (lm i)). lia.
Qed.
Print Assumptions C37_entries.
Example C37_example : make_doffset 5 17 = 163910 /\ doff_to_index 163911 = 5 /\ doff_to_slot 163911 = 17 /\
  ent_pos 5 17 /\ ent_pos (2 ^ 24) 479.
Proof. vm_compute. repeat split; discriminate. Qed.

(* ---------- C38 ---------- *)
(* Node positions in the 64-ary tree: root 1 and child number o of node i.  Parent, child number and
   depth computed from an index agree with the position, and no two positions share an index. *)
Fixpoint node_at (path : list Z) : Z :=
  match path with
  | [] => 1
  | o :: up => child_index_of (node_at up) o
  end.
Definition good_path (path : list Z) : Prop := Forall (fun o => 0 <= o < 64) path.
Lemma node_at_pos : forall p, good_path p -> 1 <= node_at p.
Proof.
  induction p as [|o p IH]; intros G; [cbn; lia|]. inversion G; subst. cbn [node_at].
  pose proof (child_ge2 (node_at p) o (IH H2) H1). lia.
Qed.
Theorem C38_index : forall o p, good_path (o :: p) ->
  index_to_parent (node_at (o :: p)) = node_at p /\ index_to_child_ord (node_at (o :: p)) = o /\
  2 <= node_at (o :: p).
Proof.
  intros o p G. inversion G; subst. cbn [node_at]. pose proof (node_at_pos p H2).
  split; [apply parent_of_child; auto|]. split; [apply ord_of_child; auto|]. apply child_ge2; auto.
Qed.
Print Assumptions C38_index.
Theorem C38_unique : forall p q, good_path p -> good_path q -> node_at p = node_at q -> p = q.
Proof.
  induction p as [|o p IH]; intros [|o' q] Gp Gq E; auto.
  - destruct (C38_index _ _ Gq) as (_ & _ & Q). cbn [node_at] in *. lia.
  - destruct (C38_index _ _ Gp) as (_ & _ & Q). cbn [node_at] in *. lia.
  - destruct (C38_index _ _ Gp) as (P1 & P2 & _). destruct (C38_index _ _ Gq) as (Q1 & Q2 & _).
    rewrite E in P1, P2. inversion Gp; inversion Gq; subst. f_equal; [congruence|]. apply IH; auto. congruence.
Qed.
Print Assumptions C38_unique.
Lemma node_at_le : forall p, good_path p -> node_at p <= 2 * 64 ^ zlen p - 1.
Proof.
  induction p as [|o p IH]; intros G; [cbn; lia|]. inversion G; subst. specialize (IH H2).
  cbn [node_at]. unfold child_index_of. unfold zlen in *. cbn [length].
  rewrite Nat2Z.inj_succ, Z.pow_succ_r by lia. lia.
Qed.
Theorem C38_depth : forall p, good_path p -> (length p <= 10)%nat -> index_depth (node_at p) = zlen p.
Proof.
  induction p as [|o p IH]; intros G L; [reflexivity|]. pose proof (node_at_le _ G) as B.
  destruct (C38_index _ _ G) as (P & _ & Q). inversion G; subst. cbn [length] in L.
  rewrite depth_parent.
  - rewrite P, IH by (auto; lia). unfold zlen. cbn [length]. lia.
  - split; auto. assert (64 ^ zlen (o :: p) <= 64 ^ 10); [|lia].
    apply Z.pow_le_mono_r; [lia|]. unfold zlen. cbn [length]. lia.
Qed.
Print Assumptions C38_depth.

(* Every node of a directory sits at the position its index names: its parent link names the node
   at the parent index, and walking from the root finds the node from its index alone.  The full
   claim is that this holds for every node; the code's own walk stops short of depth 4. *)
Theorem C38_find_partial : forall hashf st h a n, reach hashf st h -> d_nodes st a = Some n ->
  exists root, d_nodes st (d_root st) = Some root /\ dn_index root = 1 /\
    walk_path st root (index_path (Z.to_nat (index_depth (dn_index n))) (dn_index n)) = SNode n /\
    (index_depth (dn_index n) <= 3 -> stage_by_index st root (dn_index n) = SNode n).
Proof.
  intros hashf st h a n H Hn. destruct (reach_inv hashf st h H) as (am & lm & m & (I & _) & _ & _).
  pose proof (i_tree _ _ _ _ _ I) as T. destruct (t_all _ _ _ T _ _ Hn) as (i & Hi).
  destruct (t_node _ _ _ T _ _ Hi) as (n' & Hn' & N). rewrite Hn in Hn'. inversion Hn'; subst n'.
  destruct (t_idx _ _ _ T _ _ Hi) as (Q & _). rewrite (n_idx _ _ _ _ N). unfold DTREE_INDEX_MAX in Q.
  assert (exists r, am 1 = Some r) as (r & Hr).
  { assert (U : forall k j, (Z.to_nat j <= k)%nat -> am j <> None -> am 1 <> None).
    { induction k; intros j Hk Hj; destruct (am j) as [b|] eqn:E; try congruence;
        destruct (t_idx _ _ _ T _ _ E); [lia|].
      destruct (t_up _ _ _ T j) as [->|U]; [congruence|congruence|].
      destruct (Z.eq_dec j 1) as [->|]; [congruence|]. apply (IHk (index_to_parent j)); auto.
      pose proof (parent_pos j). lia. }
    specialize (U (Z.to_nat i) i ltac:(lia) ltac:(congruence)). destruct (am 1); eauto. congruence. }
  destruct (t_node _ _ _ T _ _ Hr) as (rn & Hrn & Nr).
  exists rn. rewrite (i_root _ _ _ _ _ I), Hr. cbn [aoff]. split; auto. split; [exact (n_idx _ _ _ _ Nr)|].
  pose proof (depth_nonneg i). split.
  - pose proof (walk_ok st am lm T r rn Hr Hrn (Z.to_nat (index_depth i)) i ltac:(lia) ltac:(lia)) as W.
    rewrite Hi in W. destruct W as (n2 & W1 & W2). congruence.
  - intros D. pose proof (stage_ok st am lm T r rn i Hr Hrn ltac:(lia)) as W. rewrite Hi in W.
    destruct W as (n2 & W1 & W2). destruct (depth_le3 i) as (D1 & _); [lia|]. specialize (D1 D).
    destruct (Z.leb_spec i 266305); [|lia]. congruence.
Qed.
Print Assumptions C38_find_partial.
Theorem C38_unique_index : forall hashf st h a b n k, reach hashf st h -> d_nodes st a = Some n -> d_nodes st b = Some k ->
  dn_index n = dn_index k -> a = b.
Proof.
  intros hashf st h a b n k H Hn Hk E. destruct (reach_inv hashf st h H) as (am & lm & m & (I & _) & _ & _).
  pose proof (i_tree _ _ _ _ _ I) as T. destruct (t_all _ _ _ T _ _ Hn) as (i & Hi). destruct (t_all _ _ _ T _ _ Hk) as (j & Hj).
  destruct (t_node _ _ _ T _ _ Hi) as (n' & Hn' & N). destruct (t_node _ _ _ T _ _ Hj) as (k' & Hk' & K).
  pose proof (n_idx _ _ _ _ N). pose proof (n_idx _ _ _ _ K). congruence.
Qed.
Print Assumptions C38_unique_index.

(* In the deep directory above, the node with index 266306 is stored but cannot be staged again by
   its index. *)
Theorem C38_find_refuted : exists hashf st h root a n, reach hashf st h /\ d_nodes st (d_root st) = Some root /\
  d_nodes st a = Some n /\ stage_by_index st root (dn_index n) = SErr DNoEnt.
Proof.
  destruct deep_run_ok as (_ & _ & _ & root & n & H1 & H2 & H3 & _ & H4).
  exists (fun _ _ => 0), (snd deep_run), (fst deep_run), root, (112 * 8192), n.
  split; [exact deep_reach|]. split; [exact H1|]. split; [exact H2|]. rewrite H3. exact H4.
Qed.
Print Assumptions C38_find_refuted.
Example C38_example : good_path [5; 0; 63] /\ node_at [5; 0; 63] = 262215 /\ index_depth 262215 = 3 /\
  index_to_parent 262215 = node_at [0; 63] /\ index_to_child_ord 262215 = 5.
Proof. split; [repeat (constructor; [lia|]); constructor|]. vm_compute. repeat split. Qed.
