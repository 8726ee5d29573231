(* C11: a listing returns every entry exactly once; C12: also while other names come and go. *)
From Verif Require Import Base DirNodeModel DirNodeProofs DirModel DirProofs ReaddirProofs DirProps.

(* ---------- specification ---------- *)
(* what a caller sees of an entry *)
Definition core (r : rdi) : bytes * (Z * Z) := (rd_name r, (rd_ino r, rd_dt r)).
(* a listing: call again from the position that came with the last entry, until nothing comes; each
   call has its own buffer size (and may ask for attributes) *)
Fixpoint list_dir (st : dirst) (self par : Z) (calls : list (Z * bool)) (pos : Z) : option (list rdi) :=
  match calls with
  | [] => None
  | (bsz, plus) :: rest =>
    match readdir st bsz plus self par pos with
    | (DOk, []) => Some []
    | (DOk, x :: t) => match list_dir st self par rest (rd_off (last t x)) with
                       | Some l => Some ((x :: t) ++ l)
                       | None => None
                       end
    | _ => None
    end
  end.
(* buffers that hold at least one entry *)
Definition good_calls (calls : list (Z * bool)) : Prop := Forall (fun c => 512 <= fst c) calls.
Definition dot_ents (self par : Z) : list (bytes * (Z * Z)) := [([46], (self, 4)); ([46; 46], (par, 4))].

(* ---------- proof ---------- *)
Section Call.
Variables (hashf : Z -> bytes -> Z) (self par : Z).
Hypothesis Hself : 0 < self.
Hypothesis Hpar : 0 < par.
Variables (st : dirst) (am : amap) (lm : lmap) (m : list (bytes * (Z * Z))).
Hypothesis I : inv hashf st am lm m.
Notation recs := (recs self par st am lm).
Notation gp := (goodpos am).

Lemma rec_goodpos : forall p x, In x (recs p) -> gp (rd_off x).
Proof.
  intros p x H. unfold ReaddirProofs.recs in H. destruct (p <? 0); [contradiction|]. apply in_app_or in H. destruct H as [H|H].
  - apply filter_In in H. destruct H as ([<-|[<-|[]]] & _); unfold goodpos; cbn; auto.
  - apply (ents_in _ _ _ _ _ I) in H. destruct H as (i & s & e & S & L & P & ->).
    destruct (sits_dent _ _ _ _ _ I _ _ _ S) as (_ & B & C). right. right. right. exists i, (Z.of_nat s).
    destruct S as (S & _). split; auto. split; auto. split; [lia|reflexivity].
Qed.

(* one call: the reply is an initial part [a] of the records, the rest starts at the next position *)
Lemma call_split : forall bsz plus p, gp p -> exists a q,
  readdir st bsz plus self par p = (DOk, relink a q) /\ recs p = a ++ recs q /\ gp q /\
  (forall x, In x a -> q < 0 \/ rd_off x < q) /\ (0 <= q -> p <= q /\ 0 <= p) /\
  (a = [] -> 512 <= bsz -> recs p = []).
Proof.
  intros bsz plus p Hp. pose proof (readdir_feed hashf bsz plus self par st am lm m I p Hp) as E.
  destruct (feed_all bsz plus (recs p)) as (a & r & b & E1 & E2 & E3).
  { apply (recs_live hashf self par Hself Hpar st am lm m I). }
  destruct b as [|y b] using rev_ind.
  - assert (recs p = a /\ r = eos) as (Ea & Er).
    { apply app_inj_tail in E1. destruct E1. auto. }
    exists a, (-1). subst r. rewrite E, E2. split; [reflexivity|].
    split; [rewrite Ea; cbn; rewrite app_nil_r; reflexivity|]. split; [left; lia|]. split; [left; lia|]. split; [lia|auto].
  - clear IHb. change (a ++ r :: b ++ [y]) with (a ++ (r :: b) ++ [y]) in E1. rewrite app_assoc in E1.
    apply app_inj_tail in E1. destruct E1 as (Ea & _).
    pose proof (recs_incr hashf self par st am lm m I p) as Inc. rewrite Ea in Inc.
    destruct (incr_tail a r b Inc) as (T1 & T2).
    assert (Hr : In r (recs p)) by (rewrite Ea; apply in_or_app; right; left; auto).
    assert (P0 : 0 <= p). { unfold ReaddirProofs.recs in Hr. destruct (Z.ltb_spec p 0); [contradiction|lia]. }
    apply (recs_in hashf self par st am lm m I p r P0) in Hr. destruct Hr as (Hr & Hq).
    exists a, (rd_off r). rewrite E, E2. split; [reflexivity|]. split; [|split; [|split; [|split]]].
    + rewrite Ea. f_equal. apply incr_ext; auto.
      * apply (recs_incr hashf self par st am lm m I).
      * intros x. rewrite (recs_in hashf self par st am lm m I (rd_off r) x) by lia. split.
        -- intros Hx. assert (X : In x (recs p)) by (rewrite Ea; apply in_or_app; auto).
           apply (recs_in hashf self par st am lm m I p x P0) in X. split; [tauto|].
           destruct Hx as [<-|Hx]; [lia|]. cbn [incr] in T1. destruct T1 as (T1 & _). rewrite Forall_forall in T1.
           specialize (T1 x Hx). lia.
        -- intros (X1 & X2). assert (X : In x (recs p)) by (apply (recs_in hashf self par st am lm m I p x P0); split; auto; lia).
           rewrite Ea in X. apply in_app_or in X. destruct X as [X|X]; auto. specialize (T2 x X). lia.
    + apply (rec_goodpos 0). exact Hr.
    + intros x Hx. right. auto.
    + lia.
    + auto.
Qed.

Lemma list_all : forall calls p, good_calls calls -> gp p ->
  (length (recs p) + (if (p <? 0)%Z then 0 else 1) < length calls)%nat ->
  exists l, list_dir st self par calls p = Some l /\ map core l = map core (recs p).
Proof.
  induction calls as [|[bsz plus] calls IH]; intros p G Hp Hl; cbn [length] in Hl; [lia|].
  inversion G as [|x y G1 G2]; subst. cbn [fst] in G1.
  destruct (call_split bsz plus p Hp) as (a & q & E & R & Hq & _ & Hpq & Hn). cbn [list_dir]. rewrite E.
  destruct a as [|x a].
  - rewrite (Hn eq_refl G1). exists []. auto.
  - destruct (relink (x :: a) q) as [|y t] eqn:Er; [discriminate|].
    pose proof (relink_snoc_last (x :: a) q y ltac:(discriminate)) as Hlast. rewrite Er in Hlast.
    assert (Hl2 : rd_off (last t y) = q). { rewrite <- Hlast. destruct t; reflexivity. }
    rewrite Hl2. destruct (IH q G2 Hq) as (l & -> & El).
    { rewrite R, app_length in Hl. cbn [length] in Hl. destruct (Z.ltb_spec q 0); destruct (Z.ltb_spec p 0); try lia. }
    eexists. split; [reflexivity|]. rewrite R, !map_app, El. f_equal. rewrite <- Er.
    exact (relink_core (x :: a) q).
Qed.

Lemma list_sound : forall calls p l, good_calls calls -> gp p -> list_dir st self par calls p = Some l ->
  map core l = map core (recs p).
Proof.
  induction calls as [|[bsz plus] calls IH]; intros p l G Hp Hl; [discriminate|].
  inversion G as [|x y G1 G2]; subst. cbn [fst] in G1.
  destruct (call_split bsz plus p Hp) as (a & q & E & R & Hq & _ & _ & Hn). cbn [list_dir] in Hl. rewrite E in Hl.
  destruct a as [|x a].
  - rewrite (Hn eq_refl G1). inversion Hl. reflexivity.
  - destruct (relink (x :: a) q) as [|y t] eqn:Er; [discriminate|].
    pose proof (relink_snoc_last (x :: a) q y ltac:(discriminate)) as Hlast. rewrite Er in Hlast.
    assert (Hl2 : rd_off (last t y) = q). { rewrite <- Hlast. destruct t; reflexivity. }
    rewrite Hl2 in Hl. destruct (list_dir st self par calls q) as [l'|] eqn:El; [|discriminate].
    injection Hl as <-. change (y :: t ++ l') with ((y :: t) ++ l'). rewrite R, !map_app, (IH q l' G2 Hq El). f_equal.
    rewrite <- Er. exact (relink_core (x :: a) q).
Qed.

Lemma ents_names : forall p, NoDup (map rd_name (ents st am lm p)).
Proof.
  intros p. pose proof (ents_incr hashf st am lm m I p) as Inc.
  assert (In1 : forall x, In x (ents st am lm p) -> In x (ents st am lm p)) by auto. revert Inc In1.
  generalize (ents st am lm p) at 1 2 4. induction l as [|x l IH]; intros Inc In1; cbn [map]; [constructor|].
  cbn [incr] in Inc. destruct Inc as (I1 & I2). constructor.
  - intros H. apply in_map_iff in H. destruct H as (y & Ey & Hy). rewrite Forall_forall in I1. specialize (I1 y Hy).
    pose proof (In1 x (or_introl eq_refl)) as X. pose proof (In1 y (or_intror Hy)) as Y.
    apply (ents_in _ _ _ _ _ I) in X. apply (ents_in _ _ _ _ _ I) in Y.
    destruct X as (i & s & e & S & _ & _ & ->). destruct Y as (j & t & g & S2 & _ & _ & ->). cbn [rec_of rd_name rd_off] in *.
    destruct (i_uniq _ _ _ _ _ I _ _ _ _ _ _ S S2 (eq_sym Ey)) as (-> & ->). lia.
  - apply IH; auto. intros z Hz. apply In1. right. auto.
Qed.
Lemma ents_core : forall p n v, In (n, v) (map core (ents st am lm p)) ->  In (n, v) m.
Proof.
  intros p n v H. apply in_map_iff in H. destruct H as (x & E & H). apply (ents_in _ _ _ _ _ I) in H.
  destruct H as (i & s & e & S & _ & _ & ->). apply (i_in _ _ _ _ _ I). exists i, s, e. cbn in E. inversion E. auto.
Qed.
Lemma ents_core_shallow : forall p n v, d_last st < 266306 -> p <= 2 -> In (n, v) m -> In (n, v) (map core (ents st am lm p)).
Proof.
  intros p n v L P H. apply (i_in _ _ _ _ _ I) in H. destruct H as (i & s & e & S & <- & ->).
  apply in_map_iff. exists (rec_of i s e). split; [reflexivity|]. apply (ents_in _ _ _ _ _ I). exists i, s, e.
  split; auto. destruct (sits_dent _ _ _ _ _ I _ _ _ S) as (_ & B & C). destruct S as (S & _).
  destruct (root_some hashf st am lm m I i S) as (r & Hr). destruct (i_last _ _ _ _ _ I) as (_ & _ & L3); [congruence|].
  specialize (L3 i S). unfold IDX3. split; [lia|]. split; auto. rewrite doffset_val by lia. lia.
Qed.
Lemma recs0 : map core (recs 0) = dot_ents self par ++ map core (ents st am lm 0).
Proof. unfold ReaddirProofs.recs, dots. cbn [Z.ltb Z.compare filter Z.leb rd_off]. rewrite map_app. reflexivity. Qed.
End Call.

(* ---------- theorems ---------- *)
(* With enough calls the listing completes.  It is ".", ".." and then each entry once, provided the
   tree has no node at depth 4. *)
Theorem C11_complete_shallow : forall hashf st h self par calls, reach hashf st h -> 0 < self -> 0 < par ->
  good_calls calls -> d_ndents st + 3 < zlen calls -> d_last st < 266306 ->
  exists l es, list_dir st self par calls 0 = Some l /\ map core l = dot_ents self par ++ es /\
    NoDup (map fst es) /\ (forall n v, In (n, v) es <-> spec_map h n = Some v).
Proof.
  intros hashf st h self par calls H Hs Hp G Hl D. destruct (reach_inv hashf st h H) as (am & lm & m & (I & _) & S & _).
  destruct (list_all hashf self par Hs Hp st am lm m I calls 0 G) as (l & E & El).
  - right. left. reflexivity.
  - assert (L2 : (length (recs self par st am lm 0) <= 2 + length m)%nat).
    { assert (Q : length (recs self par st am lm 0) = length (map core (recs self par st am lm 0))) by (rewrite map_length; auto).
      rewrite Q, recs0, app_length. cbn [dot_ents length]. apply le_n_S. apply le_n_S.
      rewrite map_length, <- (map_length rd_name), <- (map_length fst m).
      apply NoDup_incl_length; [apply (ents_names hashf st am lm m I)|].
      intros n Hn. apply in_map_iff in Hn. destruct Hn as (x & <- & Hx). apply in_map_iff.
      exists (core x). split; auto. destruct (core x) as [n v] eqn:Ec. apply (ents_core hashf st am lm m I 0).
      rewrite <- Ec. apply in_map. exact Hx. }
    rewrite (i_cnt _ _ _ _ _ I) in Hl. unfold zlen in Hl. cbn [Z.ltb Z.compare]. lia.
  - exists l, (map core (ents st am lm 0)). split; auto. split; [rewrite El; apply recs0|]. split.
    + rewrite map_map. apply (ents_names hashf st am lm m I).
    + intros n v. rewrite (S n v). split; [apply (ents_core hashf st am lm m I)|apply (ents_core_shallow hashf st am lm m I)]; auto; lia.
Qed.
Print Assumptions C11_complete_shallow.

(* Without that proviso: what is listed is present and listed once. *)
Theorem C11_sound_partial : forall hashf st h self par calls l, reach hashf st h -> 0 < self -> 0 < par ->
  good_calls calls -> list_dir st self par calls 0 = Some l ->
  exists es, map core l = dot_ents self par ++ es /\ NoDup (map fst es) /\
    (forall n v, In (n, v) es -> spec_map h n = Some v).
Proof.
  intros hashf st h self par calls l H Hs Hp G E. destruct (reach_inv hashf st h H) as (am & lm & m & (I & _) & S & _).
  exists (map core (ents st am lm 0)). split; [|split].
  - rewrite (list_sound hashf self par Hs Hp st am lm m I calls 0 l G); [apply recs0|right; left; reflexivity|exact E].
  - rewrite map_map. apply (ents_names hashf st am lm m I).
  - intros n v Q. apply S. apply (ents_core hashf st am lm m I 0). exact Q.
Qed.
Print Assumptions C11_sound_partial.

(* An entry stored at depth 4 is never listed. *)
Lemma deep_unlisted : forall hashf st h a n nm x, reach hashf st h -> d_nodes st a = Some n -> 266306 <= dn_index n ->
  dtn_search n nm x <> None -> nm <> [46] -> nm <> [46; 46] ->
  exists v, spec_map h nm = Some v /\
  forall self par calls l, 0 < self -> 0 < par -> good_calls calls -> list_dir st self par calls 0 = Some l ->
  ~ In nm (map rd_name l).
Proof.
  intros hashf st h a n nm x Rch H2 H3 H4 Nd Ndd. destruct (reach_inv _ _ _ Rch) as (am & lm & m & (I & _) & S & _).
  pose proof (i_tree _ _ _ _ _ I) as T. destruct (t_all _ _ _ T _ _ H2) as (i & Hi).
  destruct (t_node _ _ _ T _ _ Hi) as (n' & Hn' & N).
  assert (n' = n) by congruence. subst n'. pose proof (n_idx _ _ _ _ N) as Ei. rewrite Ei in H3.
  destruct (n_rep _ _ _ _ N) as (pos & R). rewrite (rep_search _ _ _ R) in H4.
  destruct (find_slot (fun o => slot_is o nm x) (lm i)) as [s|] eqn:F; [|congruence].
  apply find_slot_some in F. destruct F as (F1 & F2 & _).
  destruct (nth s (lm i) None) as [e|] eqn:E; [|discriminate].
  assert (En : e_name e = nm).
  { unfold slot_is in F2. apply andb_prop in F2. destruct F2 as (_ & F2). apply bytes_eqb_eq in F2. auto. }
  assert (Sx : sits am lm i s e). { split; [rewrite Hi; discriminate|exact E]. }
  exists (e_ino e, e_dt e). split; [apply S; apply (i_in _ _ _ _ _ I); exists i, s, e; auto|].
  intros self par calls l Hs Hp G Hl. pose proof (list_sound _ self par Hs Hp _ am lm m I calls 0 l G (or_intror (or_introl eq_refl)) Hl) as Q.
  rewrite recs0 in Q. intros Hin. apply (f_equal (map fst)) in Q. rewrite map_map in Q. cbn [core fst] in Q.
  change (fun x => rd_name x) with rd_name in Q. rewrite Q in Hin. rewrite map_app in Hin. apply in_app_or in Hin.
  destruct Hin as [Hin|Hin]; [destruct Hin as [Hin|[Hin|[]]]; cbn [fst] in Hin; congruence|].
  rewrite map_map in Hin. apply in_map_iff in Hin. destruct Hin as (y & Ex & Hx). cbn [core fst] in Ex.
  apply (ents_in _ _ _ _ _ I) in Hx. destruct Hx as (j & t & g & S2 & L & _ & ->). cbn [rec_of rd_name] in Ex.
  destruct (i_uniq _ _ _ _ _ I _ _ _ _ _ _ Sx S2) as (<- & _); [congruence|]. unfold IDX3 in L. lia.
Qed.
Theorem C11_deep_refuted : exists hashf st h n v, reach hashf st h /\ spec_map h n = Some v /\ good_name n /\
  forall self par calls l, 0 < self -> 0 < par -> good_calls calls -> list_dir st self par calls 0 = Some l ->
  ~ In n (map rd_name l).
Proof.
  destruct deep_run_ok as (_ & _ & _ & root & n & _ & H2 & H3 & H4 & _).
  assert (L : 266306 <= dn_index n) by (rewrite H3; apply Z.le_refl).
  assert (N1 : long_name 112 <> [46]) by discriminate.
  assert (N2 : long_name 112 <> [46; 46]) by discriminate.
  assert (N3 : good_name (long_name 112)) by (unfold good_name; vm_compute; split; discriminate).
  destruct (deep_unlisted _ _ _ _ _ _ _ deep_reach H2 L H4 N1 N2) as (v & V1 & V2).
  exists (fun _ _ => 0), (snd deep_run), (fst deep_run), (long_name 112), v.
  split; [exact deep_reach|]. split; [exact V1|]. split; [exact N3|exact V2].
Qed.
Print Assumptions C11_deep_refuted.

Example C11_example :
  option_map (map core) (list_dir (snd ex_run) 1000 1 [(512, false); (512, true); (600, true); (4096, false); (512, false); (512, false)] 0) =
  Some [([46], (1000, 4)); ([46; 46], (1, 4)); ([100], (13, 8)); ([98; 99], (11, 4))] /\
  option_map (map rd_off) (list_dir (snd ex_run) 1000 1 [(512, true); (512, true); (600, true)] 0) = Some [1; 32770; 32774; -1] /\
  d_last (snd ex_run) < 266306.
Proof. vm_compute. repeat split. Qed.

(* ---------- C12 ---------- *)
(* A listing started in state [st0] reached with history [h0], while operations [ext] happen between
   its calls: current state, position, entries returned so far, whether it has ended. *)
Inductive scan (hashf : Z -> bytes -> Z) (self par : Z) (st0 : dirst) (h0 : list (dop * derr)) :
  list (dop * derr) -> dirst -> Z -> list rdi -> bool -> Prop :=
| s_start : reach hashf st0 h0 -> scan hashf self par st0 h0 [] st0 0 [] false
| s_op : forall ext st p out d o e st', scan hashf self par st0 h0 ext st p out d -> legal_op o ->
    dstep hashf st o = (e, st') -> e <> DFatal -> scan hashf self par st0 h0 (ext ++ [(o, e)]) st' p out d
| s_more : forall ext st p out bsz plus x t, scan hashf self par st0 h0 ext st p out false -> 512 <= bsz ->
    readdir st bsz plus self par p = (DOk, x :: t) ->
    scan hashf self par st0 h0 ext st (rd_off (last t x)) (out ++ x :: t) false
| s_end : forall ext st p out bsz plus, scan hashf self par st0 h0 ext st p out false -> 512 <= bsz ->
    readdir st bsz plus self par p = (DOk, []) -> scan hashf self par st0 h0 ext st p out true.
(* what was returned under a name *)
Definition hits (n : bytes) (out : list rdi) : list (bytes * (Z * Z)) :=
  filter (fun c => bytes_eqb (fst c) n) (map core out).

Lemma hits_app : forall n a b, hits n (a ++ b) = hits n a ++ hits n b.
Proof. intros. unfold hits. rewrite map_app, filter_app. reflexivity. Qed.
Lemma hits_relink : forall n a q, hits n (relink a q) = hits n a.
Proof. intros. unfold hits. change (map core (relink a q)) with (map (fun r => (rd_name r, (rd_ino r, rd_dt r))) (relink a q)). rewrite relink_core. reflexivity. Qed.
Lemma hits_none : forall n l, (forall x, In x l -> rd_name x <> n) -> hits n l = [].
Proof.
  unfold hits. induction l as [|x l IH]; intros H; cbn [map filter]; auto. cbn [core fst].
  rewrite bytes_eqb_neq by (apply H; left; auto). apply IH. intros y Hy. apply H. right. auto.
Qed.
Lemma hits_one : forall n l x, In x l -> rd_name x = n -> NoDup (map rd_name l) -> hits n l = [core x].
Proof.
  induction l as [|y l IH]; intros x Hx Hn N; [contradiction|]. cbn [map] in N. inversion N as [|u v N1 N2]; subst.
  change (hits (rd_name x) (y :: l)) with (hits (rd_name x) ([y] ++ l)). rewrite hits_app. destruct Hx as [->|Hx].
  - rewrite (hits_none (rd_name x) l).
    + unfold hits. cbn [map filter core fst]. rewrite bytes_eqb_refl. reflexivity.
    + intros z Hz E. apply N1. rewrite <- E. apply in_map. exact Hz.
  - rewrite (IH x Hx eq_refl N2). unfold hits. cbn [map filter core fst]. rewrite bytes_eqb_neq; auto.
    intros E. apply N1. rewrite E. apply in_map. exact Hx.
Qed.

Section Stable.
Variables (hashf : Z -> bytes -> Z) (self par : Z).
Hypothesis Hself : 0 < self.
Hypothesis Hpar : 0 < par.
Variables (n : bytes) (v : Z * Z).
Hypothesis Nd : n <> [46].
Hypothesis Ndd : n <> [46; 46].

Section One.
Variables (st : dirst) (am : amap) (lm : lmap) (m : list (bytes * (Z * Z))) (i : Z) (s : nat) (e : dent).
Hypothesis I : inv hashf st am lm m.
Hypothesis S : sits am lm i s e.
Hypothesis En : e_name e = n.
Hypothesis L : i <= IDX3.

Lemma dots_other : forall x p, In x (filter (fun y => p <=? rd_off y) (dots self par)) -> rd_name x <> n.
Proof. intros x p H. apply filter_In in H. destruct H as ([<-|[<-|[]]] & _); cbn; congruence. Qed.
Lemma recs_hits : forall p, hits n (recs self par st am lm p) =
  if (p <? 0) || (make_doffset i (Z.of_nat s) <? p) then [] else [(n, (e_ino e, e_dt e))].
Proof.
  intros p. unfold recs. destruct (p <? 0); [reflexivity|]. cbn [orb]. rewrite hits_app.
  rewrite hits_none by (intros x Hx; apply (dots_other x p Hx)). cbn [app].
  destruct (Z.ltb_spec (make_doffset i (Z.of_nat s)) p) as [H|H].
  - apply hits_none. intros x Hx E. apply (ents_in _ _ _ _ _ I) in Hx. destruct Hx as (j & t & g & S2 & _ & P & ->).
    cbn [rec_of rd_name] in E. destruct (i_uniq _ _ _ _ _ I _ _ _ _ _ _ S S2) as (<- & <-); [congruence|]. lia.
  - rewrite (hits_one n _ (rec_of i s e)).
    + unfold core, rec_of. cbn [rd_name rd_ino rd_dt]. rewrite En. reflexivity.
    + apply (ents_in _ _ _ _ _ I). exists i, s, e. auto.
    + exact En.
    + apply (ents_names hashf st am lm m I).
Qed.
End One.

Definition stays (h0 ext : list (dop * derr)) : Prop :=
  spec_map h0 n = Some v /\ forall seed, ~ In (ODel n seed, DOk) ext.

Lemma scan_inv : forall st0 h0 ext st p out d, scan hashf self par st0 h0 ext st p out d -> stays h0 ext -> ~ deep st0 ->
  exists am lm m i s e, dinv hashf 2 st am lm m /\ shows (spec_map (h0 ++ ext)) m /\
    (forall k, In k (map fst m) -> good_name k) /\ goodpos am p /\
    sits am lm i s e /\ e_name e = n /\ (e_ino e, e_dt e) = v /\ i <= IDX3 /\
    hits n out = (if (p <? 0) || (make_doffset i (Z.of_nat s) <? p) then [(n, v)] else []) /\
    (d = true -> (p <? 0) || (make_doffset i (Z.of_nat s) <? p) = true).
Proof.
  intros st0 h0 ext st p out d H (V & Nx) Dp.
  induction H as [R|ext st p out d o er st' H IH Ho Hs He|ext st p out bsz plus x t H IH Hb Hc|ext st p out bsz plus H IH Hb Hc].
  - destruct (reach_inv hashf st0 h0 R) as (am & lm & m & D & S & G). pose proof D as (I & _).
    pose proof (proj1 (S n v) V) as M. apply (i_in _ _ _ _ _ I) in M. destruct M as (i & s & e & Sx & E1 & E2).
    exists am, lm, m, i, s, e. split; auto. rewrite app_nil_r. split; auto. split; auto. split; [right; left; reflexivity|].
    split; auto. split; auto. split; auto. destruct (sits_dent _ _ _ _ _ I _ _ _ Sx) as (_ & B & C).
    destruct Sx as (Sx & _). destruct (root_some hashf st0 am lm m I i Sx) as (r & Hr).
    destruct (i_last _ _ _ _ _ I) as (_ & _ & L3); [congruence|]. specialize (L3 i Sx). unfold deep, IDX3 in *.
    split; [lia|]. split; [|discriminate]. rewrite doffset_val by lia. cbn [Z.ltb Z.compare orb].
    destruct (Z.ltb_spec ((i * 8192 + Z.of_nat s) * 4 + 2) 0); [lia|reflexivity].
  - destruct IH as (am & lm & m & i & s & e & D & S & G & P & Sx & E1 & E2 & L & Hh & Hd).
    { intros seed Q. apply (Nx seed). apply in_or_app. auto. }
    destruct (step_inv hashf st am lm m _ o er st' D S G Ho Hs He) as (am' & lm' & m' & D' & S' & G' & K).
    assert (Nd1 : ~ is_del o er n).
    { intros (-> & seed & ->). apply (Nx seed). apply in_or_app. right. left. reflexivity. }
    rewrite app_assoc, spec_snoc. exists am', lm', m', i, s, e.
    destruct K as [->|(K1 & K2)].
    { exfalso. assert (Q : spec_map (h0 ++ ext) n = Some v).
      { apply S. destruct D as (I & _). apply (i_in _ _ _ _ _ I). exists i, s, e. auto. }
      assert (Q2 : exists w, apply_op (spec_map (h0 ++ ext)) (o, er) n = Some w).
      { destruct o as [k a b orc|k seed]; cbn [apply_op]; destruct er; eauto.
        - unfold dput. destruct (list_eq_dec Z.eq_dec k n); eauto.
        - rewrite dput_other; eauto. intros ->. apply Nd1. split; eauto. }
      destruct Q2 as (w & Q2). apply S' in Q2. contradiction. }
    split; auto. split; auto. split; auto. split.
    { destruct P as [|[|[|(j & t & Pj & P2)]]]; unfold goodpos; auto. right. right. right. exists j, t. auto. }
    split; [apply K2; auto; congruence|]. auto 8.
  - destruct (IH Nx) as (am & lm & m & i & s & e & D & S & G & P & Sx & E1 & E2 & L & Hh & _). clear IH. pose proof D as (I & _).
    destruct (call_split hashf self par Hself Hpar st am lm m I bsz plus p P) as (a & q & C1 & C2 & C3 & C4 & C5 & C6).
    assert (X : relink a q = x :: t) by congruence.
    assert (A : a <> []) by (intros ->; discriminate).
    assert (Q : rd_off (last t x) = q).
    { rewrite <- (relink_snoc_last a q x A). rewrite X. destruct t; reflexivity. }
    rewrite Q. exists am, lm, m, i, s, e. split; auto. split; auto. split; auto. split; auto. split; auto. split; auto. split; auto. split; auto.
    split; [|discriminate]. rewrite <- X, hits_app, hits_relink.
    pose proof (recs_hits st am lm m i s e I Sx E1 L p) as R1. pose proof (recs_hits st am lm m i s e I Sx E1 L q) as R2.
    rewrite C2, hits_app, R2 in R1. rewrite E2 in R1. rewrite Hh.
    destruct ((p <? 0) || (make_doffset i (Z.of_nat s) <? p)) eqn:B1; destruct ((q <? 0) || (make_doffset i (Z.of_nat s) <? q)) eqn:B2.
    + rewrite app_nil_r in R1. rewrite R1. reflexivity.
    + destruct (hits n a); discriminate.
    + rewrite app_nil_r in R1. rewrite R1. reflexivity.
    + destruct (hits n a) as [|c l] eqn:Ha; [reflexivity|]. destruct l; discriminate.
  - destruct (IH Nx) as (am & lm & m & i & s & e & D & S & G & P & Sx & E1 & E2 & L & Hh & _). clear IH. pose proof D as (I & _).
    exists am, lm, m, i, s, e. split; auto. split; auto. split; auto. split; auto. split; auto. split; auto. split; auto. split; auto.
    split; auto. intros _.
    destruct (call_split hashf self par Hself Hpar st am lm m I bsz plus p P) as (a & q & C1 & C2 & C3 & C4 & C5 & C6).
    assert (X : relink a q = []) by congruence. apply relink_nil in X. specialize (C6 X Hb).
    pose proof (recs_hits st am lm m i s e I Sx E1 L p) as R1. rewrite C6 in R1.
    destruct ((p <? 0) || (make_doffset i (Z.of_nat s) <? p)); auto. discriminate.
Qed.
End Stable.

(* When the listing ends, an entry present at its start and not removed since has been returned
   exactly once, with its inode number and type. *)
Theorem C12_exactly_once : forall hashf self par st0 h0 ext st p out n v, 0 < self -> 0 < par ->
  scan hashf self par st0 h0 ext st p out true -> d_last st0 < 266306 -> n <> [46] -> n <> [46; 46] ->
  spec_map h0 n = Some v -> (forall seed, ~ In (ODel n seed, DOk) ext) ->
  filter (fun c => bytes_eqb (fst c) n) (map core out) = [(n, v)].
Proof.
  intros hashf self par st0 h0 ext st p out n v Hs Hp H D N1 N2 V Nx.
  destruct (scan_inv hashf self par Hs Hp n v N1 N2 st0 h0 ext st p out true H) as (am & lm & m & i & s & e & _ & _ & _ & _ & _ & _ & _ & _ & Hh & Hd).
  - split; auto.
  - unfold deep. lia.
  - rewrite (Hd eq_refl) in Hh. exact Hh.
Qed.
Print Assumptions C12_exactly_once.
(* While it runs, no call fails, such an entry has been returned at most once, and each call
   returns something new until the end. *)
Theorem C12_progress : forall hashf self par st0 h0 ext st p out n v bsz plus, 0 < self -> 0 < par ->
  scan hashf self par st0 h0 ext st p out false -> d_last st0 < 266306 -> n <> [46] -> n <> [46; 46] ->
  spec_map h0 n = Some v -> (forall seed, ~ In (ODel n seed, DOk) ext) -> 512 <= bsz ->
  (exists ch, readdir st bsz plus self par p = (DOk, ch) /\
     (ch <> [] -> rd_off (last ch no_rdi) < 0 \/ p < rd_off (last ch no_rdi))) /\
  (filter (fun c => bytes_eqb (fst c) n) (map core out) = [(n, v)] \/
   filter (fun c => bytes_eqb (fst c) n) (map core out) = []).
Proof.
  intros hashf self par st0 h0 ext st p out n v bsz plus Hs Hp H D N1 N2 V Nx Hb.
  destruct (scan_inv hashf self par Hs Hp n v N1 N2 st0 h0 ext st p out false H) as (am & lm & m & i & s & e & (I & _) & _ & _ & P & _ & _ & _ & _ & Hh & _).
  - split; auto.
  - unfold deep. lia.
  - split.
    + destruct (call_split hashf self par Hs Hp st am lm m I bsz plus p P) as (a & q & C1 & C2 & C3 & C4 & C5 & C6).
      exists (relink a q). split; auto. intros X.
      assert (A : a <> []) by (intros ->; apply X; reflexivity).
      rewrite relink_snoc_last by auto. destruct a as [|x a]; [congruence|].
      destruct (C4 x (or_introl eq_refl)) as [Q|Q]; auto. right.
      assert (Hx : In x (recs self par st am lm p)) by (rewrite C2; left; auto).
      assert (P0 : 0 <= p). { unfold recs in Hx. destruct (Z.ltb_spec p 0); [contradiction|lia]. }
      apply (recs_in hashf self par st am lm m I p x P0) in Hx. lia.
    + fold (hits n out). rewrite Hh. destruct ((p <? 0) || _); auto.
Qed.
Print Assumptions C12_progress.

(* the same, with a name added and another removed between two calls *)
Example C12_example :
  let r1 := readdir (snd ex_run) 512 true 1000 1 0 in
  let s1 := dstep ex_hash (snd ex_run) (OAdd [101] 20 8 []) in
  let s2 := dstep ex_hash (snd s1) (ODel [98; 99] 6) in
  let r2 := readdir (snd s2) 512 true 1000 1 (rd_off (last (snd r1) no_rdi)) in
  (fst r1, fst s1, fst s2, fst r2) = (DOk, DOk, DOk, DOk) /\
  map core (snd r1 ++ snd r2) = [([46], (1000, 4)); ([46; 46], (1, 4)); ([100], (13, 8)); ([101], (20, 8))].
Proof. vm_compute. split; reflexivity. Qed.
