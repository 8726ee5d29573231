(* C33, C34: what a sync writes and what a failed sync leaves behind. *)
From Coq Require Import Permutation.
From Verif Require Import Base AddrModel DirtyModel FlushModel TaskProps DirtyProps FlushProofs.

(* ------------------------------------------------------------------ *)
(* Specification: the write that stores one object's current contents.  Data is stored as
   it is, everything else with its header sealed; an object whose address must not be
   written any more goes to the address found for it. *)

Definition stored_view (e : env) (k : kind) (v : bytes) : bytes :=
  match k with KData => v | KMeta | KInode | KUnode | KSuper => v_seal e v end.

Definition target (e : env) (k : kind) (i : Z) (x : cont) : option (laddr * bytes) :=
  match k with
  | KData | KMeta | KInode =>
      if v_mut e (c_laddr x) then Some (c_laddr x, c_riv x) else v_refresh e i
  | KUnode | KSuper => Some (c_laddr x, c_riv x)
  end.

Definition image (e : env) (k : kind) (i : Z) (x : cont) : option wr :=
  match target e k i x with
  | None => None
  | Some (a, riv) =>
      match v_enc e a riv (stored_view e k (c_view x)) with
      | None => None
      | Some b => Some (mkW i (la_lsid a) (la_pos a) b)
      end
  end.

(* data, then metadata, then space maps and super block *)
Definition rank (k : kind) : Z :=
  match k with KData => 0 | KMeta | KInode => 1 | KUnode | KSuper => 2 end.

Fixpoint ascending (l : list Z) {struct l} : Prop :=
  match l with
  | [] => True
  | a :: r => match r with [] => True | b :: _ => a <= b end /\ ascending r
  end.

(* the bytes of writes queued earlier *)
Definition queued (q : sqe) : wr :=
  mkW (s_id q) (la_lsid (s_laddr q)) (la_pos (s_laddr q)) (concat (s_iov q)).

(* ------------------------------------------------------------------ *)
(* Proof *)

Lemma image_fin : forall e k i x b,
  may_write e k (c_laddr (settle e k i (sealed e k x))) = true ->
  v_enc e (c_laddr (settle e k i (sealed e k x))) (c_riv (settle e k i (sealed e k x)))
        (c_view (settle e k i (sealed e k x))) = Some b ->
  image e k i x = Some (mkW i (la_lsid (c_laddr (settle e k i (sealed e k x))))
                             (la_pos (c_laddr (settle e k i (sealed e k x)))) b).
Proof.
  intros e k i x b. unfold image, target, settle, sealed, stored_view, may_write.
  destruct k; cbn [is_vnode andb with_view c_laddr c_riv c_view];
    try (intros _ ->; reflexivity);
    (destruct (v_mut e (c_laddr x)) eqn:M; cbn [negb]; [cbn; intros _ ->; reflexivity|]);
    (destruct (v_refresh e i) as [[a r]|]; cbn; [intros _ ->; reflexivity|congruence]).
Qed.

(* a queued write with the member writes it stands for *)
Definition sq_good (e : env) (kd : Z -> kind) (c : Z -> cont) (q : sqe) (ws : list wr) : Prop :=
  s_lni q <> []
  /\ Forall2 (fun i w => image e (kd i) i (c i) = Some w) (s_lni q) ws
  /\ forall d, same (after d [queued q]) (after d ws).

Lemma sq_ok_good : forall e kd c C0 q, env_ok e ->
  (forall i, In i (s_lni q) -> C0 i = sealed e (kd i) (c i)) ->
  sq_ok e kd (fin e kd C0) q ->
  Forall (fun j => may_write e (kd j) (c_laddr (fin e kd C0 j)) = true) (s_lni q) ->
  exists ws, sq_good e kd c q ws.
Proof.
  intros e kd c C0 q EO HC (H1 & H2 & H3) M.
  exists (member_writes (s_lni q) (map (fun i => c_laddr (fin e kd C0 i)) (s_lni q)) (s_iov q)).
  split; [exact H1|]. split.
  - clear H1 H3. revert HC M. induction H2 as [|i b l bs E F IH]; intros HC M; cbn [map member_writes]; constructor.
    + inversion M; subst. unfold fin in *. rewrite (HC i) in * by (left; reflexivity). apply image_fin; assumption.
    + apply IH; [intros; apply HC; right; assumption|inversion M; assumption].
  - intro d. unfold queued. apply concat_writes.
    + clear - H2. induction H2; cbn; congruence.
    + clear - H2 EO. induction H2; cbn [map]; constructor; [|assumption].
      symmetry. eapply (v_enc_len _ EO). eassumption.
    + destruct (s_lni q) as [|i l] eqn:L; [congruence|]. cbn [map shape] in H3.
      destruct H3 as (_ & C & _).
      change (mem_of kd (fin e kd C0) i :: map (mem_of kd (fin e kd C0)) l) with
        (map (mem_of kd (fin e kd C0)) (i :: l)) in C.
      rewrite addrs_mem in C. exact C.
Qed.

Lemma rel_undirtify_list : forall l s w dom, rel s w dom ->
  exists s', undirtify_list s l = Some s' /\ rel s' (clean_list w l) dom.
Proof.
  induction l as [|i l IH]; intros s w dom R.
  - exists s. split; [reflexivity|]. apply (rel_same_world _ w); [exact R|].
    intro j. unfold clean_list. cbn. destruct (w j); reflexivity.
  - cbn [undirtify_list]. destruct (rel_undirtify _ _ _ i R) as (s1 & -> & R1 & _).
    destruct (IH s1 _ dom R1) as (s2 & -> & R2). exists s2. split; [reflexivity|].
    apply (rel_same_world _ _ _ _ R2). intro j.
    unfold clean_list, clean. cbn [existsb]. destruct (w i) as [o|] eqn:W.
    + unfold mark, fset. destruct (Z.eqb_spec j i) as [->|]; cbn [orb].
      * rewrite W. destruct (existsb (Z.eqb i) l); reflexivity.
      * reflexivity.
    + destruct (w j) as [x|] eqn:Wj; [|reflexivity]. destruct (Z.eqb_spec j i) as [->|]; [congruence|].
      reflexivity.
Qed.

Lemma clean_list_app : forall w a b j, clean_list (clean_list w a) b j = clean_list w (a ++ b) j.
Proof.
  intros. unfold clean_list. destruct (w j) as [o|]; [|reflexivity]. rewrite existsb_app.
  destruct (existsb (Z.eqb j) a), (existsb (Z.eqb j) b); reflexivity.
Qed.

Lemma clean_list_perm : forall w a b j, Permutation a b -> clean_list w a j = clean_list w b j.
Proof.
  intros w a b j P. unfold clean_list. destruct (w j) as [o|]; [|reflexivity].
  assert (existsb (Z.eqb j) a = existsb (Z.eqb j) b) as ->; [|reflexivity].
  apply eq_true_iff_eq. rewrite !existsb_exists. split; intros (x & X1 & X2); exists x; split; auto.
  - eapply Permutation_in; eassumption.
  - eapply Permutation_in; [apply Permutation_sym|]; eassumption.
Qed.

Lemma rel_isdirty : forall s w dom i, rel s w dom -> isdirty s i = true <-> wdirty w i <> None.
Proof.
  intros s w dom i R. unfold isdirty. split.
  - intro H. destruct (rel_inq_live _ _ _ _ R H) as (o & W & _ & _ & _ & q & _ & Q).
    unfold wdirty. rewrite W, Q. discriminate.
  - unfold wdirty. pose proof (r_el _ _ _ R i) as E. destruct (w i) as [o|]; [|congruence].
    destruct E as (_ & _ & _ & _ & E & _). rewrite E. destruct (e_inq (d_el s i)); congruence.
Qed.

Lemma existsb_eqb_in : forall i l, existsb (Z.eqb i) l = true <-> In i l.
Proof.
  intros. rewrite existsb_exists. split.
  - intros (x & H1 & H2). apply Z.eqb_eq in H2. subst. exact H1.
  - intro H. exists i. split; [exact H|apply Z.eqb_refl].
Qed.

Lemma wdirty_clean_list : forall w l i,
  wdirty (clean_list w l) i = if existsb (Z.eqb i) l then None else wdirty w i.
Proof.
  intros. unfold wdirty, clean_list. destruct (w i); destruct (existsb (Z.eqb i) l); reflexivity.
Qed.

Lemma drun_app : forall a b s, drun s (a ++ b) = match drun s a with Some s1 => drun s1 b | None => None end.
Proof.
  induction a as [|o a IH]; intros b s; [reflexivity|]. cbn [app drun]. destruct (dstep s o); [apply IH|reflexivity].
Qed.

Lemma undirtify_drun : forall l s, undirtify_list s l = drun s (map Clean l).
Proof.
  induction l as [|i l IH]; intro s; [reflexivity|]. cbn [map drun undirtify_list dstep].
  destruct (lni_undirtify s i); [apply IH|reflexivity].
Qed.

Lemma process_dset_spec : forall e kd d l members w dom c x d1 l1, env_ok e -> rel d w dom ->
  NoDup members -> (forall i, In i members -> l_c l i = c i) ->
  process_dset e kd d l members = Some (x, d1, l1) ->
  (forall i, ~ In i members -> x = None -> l_c l1 i = l_c l i)
  /\ (forall i, c_async (l_c l1 i) = c_async (l_c l i)
         /\ (c_view (l_c l1 i) = c_view (l_c l i)
             \/ (In i members /\ c_view (l_c l1 i) = stored_view e (kd i) (c_view (l_c l i)))))
  /\ l_apex l <= l_apex l1 /\ a_wr (l_o l1) = a_wr (l_o l) /\ (x <> Some EFUEL /\ x <> Some EIO)
  /\ (exists cl, drun d (map Clean cl) = Some d1)
  /\ match x with
     | Some _ => d1 = d
     | None =>
         exists order qs, Permutation order members
           /\ l_txq l1 = l_txq l ++ qs /\ concat (map s_lni qs) = order
           /\ Forall (fun q => exists ws, sq_good e kd c q ws) qs
           /\ increasing (l_apex l) qs (l_apex l1)
           /\ rel d1 (clean_list w order) dom
     end.
Proof.
  intros e kd d l members w dom c x d1 l1 EO R N HC H. unfold process_dset in H.
  destruct members as [|m0 mr].
  { injection H as <- <- <-. split; [auto|]. split; [auto|]. split; [lia|]. split; [reflexivity|].
    split; [split; discriminate|]. split; [exists []; reflexivity|].
    exists [], []. rewrite app_nil_r. split; [constructor|]. split; [reflexivity|]. split; [reflexivity|].
    split; [constructor|]. split; [cbn; lia|].
    apply (rel_same_world _ w); [exact R|]. intro j. unfold clean_list. cbn. destruct (w j); reflexivity. }
  remember (m0 :: mr) as members eqn:Em. clear Em m0 mr.
  set (preq := rev (v_walk e members)) in *.
  assert (PP : Permutation preq members).
  { unfold preq. eapply perm_trans; [apply Permutation_sym, Permutation_rev|apply (v_walk_ok _ EO)]. }
  assert (NP : NoDup preq) by (eapply Permutation_NoDup; [apply Permutation_sym; exact PP|exact N]).
  set (l0 := mkFl (seal_all e kd (l_c l) preq) (l_txq l) (l_apex l) (l_o l)) in *.
  assert (SC : forall j, l_c l0 j = if existsb (Z.eqb j) preq then sealed e (kd j) (l_c l j) else l_c l j).
  { intro j. unfold l0. cbn [l_c]. apply seal_all_at. exact NP. }
  assert (IM : forall j, existsb (Z.eqb j) preq = true <-> In j members).
  { intro j. rewrite existsb_eqb_in. split; intro X.
    - eapply Permutation_in; eassumption.
    - eapply Permutation_in; [apply Permutation_sym|]; eassumption. }
  assert (SV : forall j, c_async (l_c l0 j) = c_async (l_c l j)
            /\ (c_view (l_c l0 j) = c_view (l_c l j)
                \/ In j members /\ c_view (l_c l0 j) = stored_view e (kd j) (c_view (l_c l j)))).
  { intro j. rewrite SC. destruct (existsb (Z.eqb j) preq) eqn:X; [|auto]. apply IM in X.
    unfold sealed, stored_view. destruct (kd j); cbn; auto. }
  destruct (enqueue_dset (length preq) e kd l0 preq []) as [[y l2] postq] eqn:Q.
  pose proof (conj (no_efuel e kd _ _ _ _ _ _ _ (le_n _) Q) (no_eio e kd _ _ _ _ _ _ _ (le_n _) Q)) as NE.
  destruct (enqueue_view e kd _ _ _ _ _ _ _ Q) as (V1 & V2 & V3).
  assert (VV : forall i, c_async (l_c l2 i) = c_async (l_c l i)
         /\ (c_view (l_c l2 i) = c_view (l_c l i)
             \/ (In i members /\ c_view (l_c l2 i) = stored_view e (kd i) (c_view (l_c l i))))).
  { intro i. destruct (V1 i) as [A1 A2]. destruct (SV i) as [B1 B2]. rewrite A1, A2. auto. }
  destruct y as [y|].
  { injection H as <- <- <-. split; [discriminate|]. split; [exact VV|]. cbn [l_apex] in V2.
    split; [exact V2|]. split; [exact V3|]. split; [exact NE|].
    split; [exists []; reflexivity|]. reflexivity. }
  destruct (undirtify_list d postq) as [d2|] eqn:U; [|discriminate]. injection H as <- <- <-.
  destruct (enqueue_ok e kd _ _ _ _ _ _ (l_c l0) (fun j => eq_refl) Q)
    as (qs & E1 & E2 & E3 & E4 & E5 & E6 & E7 & E8 & E9).
  split.
  { intros i Hi _. rewrite (ad_out _ _ _ _ _ E5) by (intro X; apply Hi; apply IM, existsb_eqb_in; exact X).
    rewrite SC. destruct (existsb (Z.eqb i) preq) eqn:X; [apply IM in X; contradiction|reflexivity]. }
  split; [exact VV|]. split; [exact V2|]. split; [exact V3|]. split; [split; discriminate|].
  split; [exists postq; rewrite <- undirtify_drun; exact U|].
  exists preq, qs. split; [exact PP|]. split; [exact E1|]. split; [exact E2|]. split.
  { apply Forall_forall. intros q Hq. rewrite Forall_forall in E4.
    assert (INC : forall j, In j (s_lni q) -> In j preq).
    { intros j Hj. rewrite <- E2. apply in_concat. exists (s_lni q). split; [apply in_map; exact Hq|exact Hj]. }
    apply (sq_ok_good e kd c (l_c l0)); [exact EO| |apply E4; exact Hq|].
    - intros j Hj. rewrite SC. apply INC in Hj. apply existsb_eqb_in in Hj. rewrite Hj.
      f_equal. apply HC, IM. exact Hj.
    - apply Forall_forall. intros j Hj. rewrite Forall_forall in E8. apply E8, INC. exact Hj. }
  split; [exact E7|].
  destruct (rel_undirtify_list postq _ _ _ R) as (d3 & U2 & R2). rewrite U in U2. injection U2 as <-.
  apply (rel_same_world _ _ _ _ R2). intro j. apply clean_list_perm.
  rewrite E3, app_nil_r. apply Permutation_rev.
Qed.

(* the objects of a list of slots, in the order of the slots *)
Definition slots_of (kd : Z -> kind) (slots all : list Z) : list Z :=
  flat_map (fun t => in_slot kd t all) slots.

Lemma in_in_slot : forall kd t l i, In i (in_slot kd t l) <-> In i l /\ slot_of (kd i) = t.
Proof. intros. unfold in_slot. rewrite filter_In, Z.eqb_eq. tauto. Qed.

Lemma process_dsets_spec : forall slots e kd d l all w dom c x d1 l1, env_ok e -> rel d w dom ->
  NoDup all -> NoDup slots ->
  (forall i, In i all -> In (slot_of (kd i)) slots -> l_c l i = c i) ->
  process_dsets slots e kd d l all = Some (x, d1, l1) ->
  (forall i, c_async (l_c l1 i) = c_async (l_c l i)
         /\ (c_view (l_c l1 i) = c_view (l_c l i)
             \/ (In i all /\ In (slot_of (kd i)) slots /\ c_view (l_c l1 i) = stored_view e (kd i) (c_view (l_c l i)))))
  /\ l_apex l <= l_apex l1 /\ a_wr (l_o l1) = a_wr (l_o l) /\ (x <> Some EFUEL /\ x <> Some EIO)
  /\ (exists cl, drun d (map Clean cl) = Some d1)
  /\ match x with
     | Some _ =>
         exists pre t post order, slots = pre ++ t :: post
           /\ Permutation order (slots_of kd pre all) /\ rel d1 (clean_list w order) dom
           /\ in_slot kd t all <> []
     | None =>
         exists orders qs,
           Forall2 (fun t o => Permutation o (in_slot kd t all)) slots orders
           /\ l_txq l1 = l_txq l ++ qs /\ concat (map s_lni qs) = concat orders
           /\ Forall (fun q => exists ws, sq_good e kd c q ws) qs
           /\ increasing (l_apex l) qs (l_apex l1)
           /\ rel d1 (clean_list w (concat orders)) dom
     end.
Proof.
  induction slots as [|t slots IH]; intros e kd d l all w dom c x d1 l1 EO R N NS HC H; cbn [process_dsets] in H.
  - injection H as <- <- <-. split; [auto|]. split; [lia|]. split; [reflexivity|]. split; [split; discriminate|].
    split; [exists []; reflexivity|]. exists [], []. rewrite app_nil_r. split; [constructor|]. split; [reflexivity|]. split; [reflexivity|].
    split; [constructor|]. split; [cbn; lia|].
    apply (rel_same_world _ w); [exact R|]. intro j. unfold clean_list. cbn. destruct (w j); reflexivity.
  - destruct (process_dset e kd d l (in_slot kd t all)) as [[[y d2] l2]|] eqn:P; [|discriminate].
    assert (NT : NoDup (in_slot kd t all)) by (apply NoDup_filter; exact N).
    assert (HT : forall i, In i (in_slot kd t all) -> l_c l i = c i).
    { intros i Hi. apply in_in_slot in Hi. destruct Hi as [Hi Ht]. apply HC; [exact Hi|left; congruence]. }
    destruct (process_dset_spec e kd d l (in_slot kd t all) w dom c y d2 l2 EO R NT HT P)
      as (A1 & A2 & A3 & A4 & A5 & (cl & A7) & A6).
    inversion NS as [|? ? NS1 NS2]; subst.
    assert (A2' : forall i, c_async (l_c l2 i) = c_async (l_c l i)
         /\ (c_view (l_c l2 i) = c_view (l_c l i)
             \/ (In i all /\ slot_of (kd i) = t /\ c_view (l_c l2 i) = stored_view e (kd i) (c_view (l_c l i))))).
    { intro i. destruct (A2 i) as [B1 [B2|[B2 B3]]]; split; auto. apply in_in_slot in B2. tauto. }
    destruct y as [y|].
    + injection H as <- <- <-. split.
      { intro i. destruct (A2' i) as [B1 [B2|(B2 & B3 & B4)]]; split; auto. right. split; [exact B2|].
        split; [left; congruence|exact B4]. }
      split; [exact A3|]. split; [exact A4|]. split; [exact A5|].
      split; [exists cl; exact A7|]. exists [], t, slots, []. split; [reflexivity|]. split; [constructor|].
      subst d2. split.
      * apply (rel_same_world _ w); [exact R|]. intro j. unfold clean_list. cbn. destruct (w j); reflexivity.
      * intro X. rewrite X in P. cbn in P. discriminate.
    + destruct A6 as (order & qs & O1 & O2 & O3 & O4 & O5 & O6).
      assert (HC2 : forall i, In i all -> In (slot_of (kd i)) slots -> l_c l2 i = c i).
      { intros i Hi Hs. rewrite A1; [apply HC; [exact Hi|right; exact Hs]| |reflexivity].
        intro X. apply in_in_slot in X. destruct X as [_ X]. rewrite X in Hs. contradiction. }
      specialize (IH e kd d2 l2 all (clean_list w order) dom c x d1 l1 EO O6 N NS2 HC2 H).
      destruct IH as (I1 & I2 & I3 & I4 & (cl' & I6) & I5).
      split.
      { intro i. destruct (A2' i) as [B1 B2]. destruct (I1 i) as [C1 C2]. split; [congruence|].
        destruct B2 as [B2|(B2 & B3 & B4)].
        - rewrite B2 in C2. destruct C2 as [C2|(C2 & C3 & C4)]; [auto|]. right. split; [exact C2|].
          split; [right; exact C3|exact C4].
        - destruct C2 as [C2|(C2 & C3 & C4)].
          + right. split; [exact B2|]. split; [left; congruence|congruence].
          + exfalso. apply NS1. congruence. }
      split; [lia|]. split; [congruence|]. split; [exact I4|].
      split; [exists (cl ++ cl'); rewrite map_app, drun_app, A7; exact I6|].
      destruct x as [x|].
      * destruct I5 as (pre & t' & post & order' & J1 & J2 & J3 & J4).
        exists (t :: pre), t', post, (order ++ order'). split; [cbn [app]; congruence|].
        split; [unfold slots_of; cbn [flat_map]; apply Permutation_app; assumption|].
        split; [|exact J4]. apply (rel_same_world _ _ _ _ J3). intro j. symmetry. apply clean_list_app.
      * destruct I5 as (orders & qs' & J1 & J2 & J3 & J4 & J5 & J6).
        exists (order :: orders), (qs ++ qs'). split; [constructor; assumption|].
        split; [rewrite J2, O2, app_assoc; reflexivity|].
        split; [rewrite map_app, concat_app, O3, J3; reflexivity|].
        split; [apply Forall_app; auto|].
        split; [eapply increasing_app; eassumption|].
        apply (rel_same_world _ _ _ _ J6). intro j. symmetry. apply clean_list_app.
Qed.

(* ---- which objects a flush collects ---- *)

(* Specification: scope None is the whole file system, Some ii one open file.  An object
   used by an asynchronous write is left out. *)
Definition wants (w : world) (c : Z -> cont) (scope : option Z) (i : Z) : Prop :=
  match scope with
  | None =>
      match wdirty w i with
      | None => False
      | Some OwnUnis => True
      | Some OwnIis => True
      | Some OwnVnis => c_async (c i) = false
      | Some (OwnInode ii) => c_async (c i) = false /\ wdirty w ii <> None
      end
  | Some ii =>
      i = ii \/
      match wdirty w i with
      | None => False
      | Some OwnUnis => True
      | Some OwnIis => False
      | Some OwnVnis => c_async (c i) = false
      | Some (OwnInode k) => k = ii /\ c_async (c i) = false
      end
  end.

Definition scope_of (oii : option Z) (flags : Z) : option Z := if hasf flags F_NOW then None else oii.

Lemma rel_in : forall d w dom i q, rel d w dom ->
  In i (q_l (d_q d q)) <-> wdirty w i = Some (owner_of q).
Proof.
  intros d w dom i q R. rewrite (r_in _ _ _ R). unfold wdirty. split.
  - intros [H1 H2]. destruct (rel_inq_live _ _ _ _ R H1) as (o & W & _ & _ & _ & q' & Q1 & Q2).
    rewrite W, Q2. congruence.
  - pose proof (r_el _ _ _ R i) as E. destruct (w i) as [o|]; [|discriminate].
    destruct E as (E1 & E2 & E3 & E4 & E5 & q' & E6 & E7). rewrite E5.
    destruct (e_inq (d_el d i)); [|discriminate]. rewrite E6. cbn. intro X. split; [reflexivity|].
    assert (Y : owner_of q' = owner_of q) by congruence. destruct q', q; cbn in Y; congruence.
Qed.

Lemma inode_owner : forall d w dom ii x ow, rel d w dom -> w ii = Some x -> is_inode (o_kind x) = true ->
  wdirty w ii = Some ow -> ow = OwnIis.
Proof.
  intros d w dom ii x ow R W K H. unfold wdirty in H. rewrite W in H.
  pose proof (r_el _ _ _ R ii) as E. rewrite W in E. destruct E as (E1 & E2 & E3 & E4 & E5 & q & E6 & E7).
  rewrite K in E7. cbn in E7. rewrite andb_false_r in E7. specialize (E7 eq_refl).
  rewrite E5, E6 in H. destruct (o_kind x); try discriminate. cbn in E7. subst q.
  destruct (e_inq (d_el d ii)); cbn in H; congruence.
Qed.

Lemma nodup_app : forall (a b : list Z), NoDup a -> NoDup b -> (forall i, In i a -> In i b -> False) -> NoDup (a ++ b).
Proof.
  induction a as [|x a IH]; intros b Na Nb Hd; [exact Nb|]. inversion Na; subst. cbn [app]. constructor.
  - intro X. apply in_app_or in X. destruct X; [contradiction|]. apply (Hd x); [left; reflexivity|assumption].
  - apply IH; auto. intros i Hi. apply Hd. right. exact Hi.
Qed.

Lemma in_vnis : forall d w dom c q i, rel d w dom ->
  In i (vnis_of d c q) <-> wdirty w i = Some (owner_of q) /\ c_async (c i) = false.
Proof.
  intros. unfold vnis_of. rewrite filter_In, (rel_in _ _ _ _ _ H). unfold may_flush.
  destruct (c_async (c i)); cbn; intuition congruence.
Qed.

Lemma in_add_ii : forall d w dom c ii i, rel d w dom ->
  In i (add_ii d c ii) <-> (wdirty w i = Some (OwnInode ii) /\ c_async (c i) = false) \/ i = ii.
Proof.
  intros. unfold add_ii. rewrite in_app_iff, (in_vnis _ _ _ _ _ _ H). cbn. intuition congruence.
Qed.

Definition scope_ok (w : world) (scope : option Z) : Prop :=
  match scope with
  | None => True
  | Some ii => match w ii with Some x => is_inode (o_kind x) = true | None => False end
  end.

Lemma owned_by_inode : forall d w dom i ii, rel d w dom -> wdirty w i = Some (OwnInode ii) ->
  exists x, w ii = Some x /\ is_inode (o_kind x) = true.
Proof.
  intros d w dom i ii R H. assert (In i (q_l (d_q d (QOf ii)))) by (apply (rel_in _ _ _ _ _ R); exact H).
  apply (r_own _ _ _ R) in H0. destruct H0 as [L K]. pose proof (r_el _ _ _ R ii) as E.
  destruct (w ii) as [x|]; [|rewrite E in L; discriminate]. exists x. split; [reflexivity|].
  destruct E as (_ & E & _). congruence.
Qed.

Lemma fill_spec : forall d w dom c oii flags, rel d w dom -> scope_ok w (scope_of oii flags) ->
  NoDup (fill_dsets d c oii flags)
  /\ forall i, In i (fill_dsets d c oii flags) <-> wants w c (scope_of oii flags) i.
Proof.
  intros d w dom c oii flags R OK. unfold fill_dsets. fold (scope_of oii flags).
  assert (NV : forall q, NoDup (vnis_of d c q)) by (intro; apply NoDup_filter, (r_nd _ _ _ R)).
  assert (NA : forall ii, wdirty w ii <> Some (OwnInode ii) -> NoDup (add_ii d c ii)).
  { intros ii K. apply nodup_app; [apply NV|repeat constructor; intros []|].
    intros i X [<-|[]]. apply (in_vnis _ _ _ _ _ _ R) in X. destruct X as [X _]. contradiction. }
  assert (TL : forall i, In i (vnis_of d c QVnis ++ q_l (d_q d QUnis)) <->
     wdirty w i = Some OwnUnis \/ (wdirty w i = Some OwnVnis /\ c_async (c i) = false)).
  { intro i. rewrite in_app_iff, (in_vnis _ _ _ _ _ _ R), (rel_in _ _ _ _ _ R). cbn. tauto. }
  assert (NT : NoDup (vnis_of d c QVnis ++ q_l (d_q d QUnis))).
  { apply nodup_app; [apply NV|apply (r_nd _ _ _ R)|]. intros i X Y.
    apply (in_vnis _ _ _ _ _ _ R) in X. apply (rel_in _ _ _ _ _ R) in Y. cbn in X, Y. destruct X. congruence. }
  destruct (scope_of oii flags) as [ii|]; cbn [scope_ok] in OK.
  - destruct (w ii) as [x|] eqn:W; [|contradiction]. split.
    + apply nodup_app; [apply NA|exact NT|].
      { intro X. pose proof (inode_owner _ _ _ _ _ _ R W OK X). discriminate. }
      intros i X Y. apply (in_add_ii _ _ _ _ _ _ R) in X.
      apply TL in Y. destruct X as [[X _]| ->]; [destruct Y as [Y|[Y _]]; congruence|].
      destruct Y as [Y|[Y _]]; pose proof (inode_owner _ _ _ _ _ _ R W OK Y); discriminate.
    + intro i. rewrite in_app_iff, (in_add_ii _ _ _ _ _ _ R), TL. cbn [wants].
      destruct (wdirty w i) as [[| | |k]|]; intuition (try discriminate; try congruence).
  - assert (IF : forall i, In i (flat_map (add_ii d c) (q_l (d_q d QIis))) <->
       wdirty w i = Some OwnIis \/
       exists ii, wdirty w i = Some (OwnInode ii) /\ c_async (c i) = false /\ wdirty w ii = Some OwnIis).
    { intro i. rewrite in_flat_map. split.
      - intros (ii & H1 & H2). apply (rel_in _ _ _ _ _ R) in H1. apply (in_add_ii _ _ _ _ _ _ R) in H2.
        cbn in H1. destruct H2 as [[H2 H3]| ->]; [right; eauto|left; exact H1].
      - intros [H|(ii & H1 & H2 & H3)].
        + exists i. split; [apply (rel_in _ _ _ _ _ R); exact H|apply (in_add_ii _ _ _ _ _ _ R); auto].
        + exists ii. split; [apply (rel_in _ _ _ _ _ R); exact H3|apply (in_add_ii _ _ _ _ _ _ R); auto]. }
    assert (OI : forall i ii, wdirty w i = Some (OwnInode ii) -> wdirty w ii <> None -> wdirty w ii = Some OwnIis).
    { intros i ii H1 H2. destruct (owned_by_inode _ _ _ _ _ R H1) as (x & W & K).
      destruct (wdirty w ii) as [ow|] eqn:X; [|congruence].
      rewrite (inode_owner _ _ _ _ _ _ R W K X). reflexivity. }
    split.
    + apply nodup_app; [|exact NT|].
      * assert (G : forall l, NoDup l -> (forall ii, In ii l -> wdirty w ii = Some OwnIis) ->
                    NoDup (flat_map (add_ii d c) l)).
        { induction l as [|a l IH]; intros N H; [constructor|]. cbn [flat_map]. inversion N; subst.
          pose proof (H a (or_introl eq_refl)) as Ha.
          apply nodup_app; [apply NA; congruence|apply IH; [assumption|intros; apply H; right; assumption]|].
          intros i X Y. apply in_flat_map in Y. destruct Y as (b & Y1 & Y2).
          pose proof (H b (or_intror Y1)) as Hb.
          apply (in_add_ii _ _ _ _ _ _ R) in X. apply (in_add_ii _ _ _ _ _ _ R) in Y2.
          destruct X as [[X _]| ->], Y2 as [[Y _]|Y]; subst; try congruence; contradiction. }
        apply G; [apply (r_nd _ _ _ R)|]. intros ii H. apply (rel_in _ _ _ _ _ R) in H. exact H.
      * intros i X Y. apply IF in X. apply TL in Y.
        destruct X as [X|(ii & X & _)]; destruct Y as [Y|[Y _]]; congruence.
    + intro i. rewrite in_app_iff, IF, TL. cbn [wants]. split.
      * intros [[H|(ii & H1 & H2 & H3)]|[H|[H1 H2]]].
        -- rewrite H. exact I.
        -- rewrite H1. split; [exact H2|congruence].
        -- rewrite H. exact I.
        -- rewrite H1. exact H2.
      * destruct (wdirty w i) as [[| | |k]|] eqn:X; intro H; try contradiction; auto.
        destruct H as [H1 H2]. left. right. exists k. split; [reflexivity|]. split; [exact H1|].
        exact (OI _ _ X H2).
Qed.

(* ---- from queued writes to storage ---- *)

Lemma submitq_apply_all : forall q id d wr r rest d' wr', Forall (fun x => s_id x <= id) q ->
  submitq_apply id q d wr = (r, rest, d', wr') ->
  (r = None -> rest = [] /\ same d' (after d (map queued q))).
Proof.
  induction q as [|x q IH]; intros id d wr r rest d' wr' F H Hr; cbn [submitq_apply] in H.
  - injection H as <- <- <- <-. split; [reflexivity|apply same_refl].
  - inversion F; subst. destruct (Z.ltb_spec id (s_id x)); [lia|].
    destruct (pop None wr) as [w wr1]. destruct w as [k|]; cbn [write_sqe] in H; [discriminate|].
    destruct (IH _ _ _ _ _ _ _ H3 H eq_refl) as [-> S]. split; [reflexivity|].
    cbn [map after]. eapply same_trans; [exact S|]. apply after_same.
    apply (disk_put_after d (la_lsid (s_laddr x)) (la_pos (s_laddr x)) (concat (s_iov x)) (s_id x)).
Qed.

Lemma good_concat : forall e kd c qs, Forall (fun q => exists ws, sq_good e kd c q ws) qs ->
  exists ws, Forall2 (fun i w => image e (kd i) i (c i) = Some w) (concat (map s_lni qs)) ws
    /\ forall d, same (after d (map queued qs)) (after d ws).
Proof.
  intros e kd c qs F. induction F as [|q qs (ws & G1 & G2 & G3) F (ws' & I1 & I2)].
  - exists []. split; [constructor|]. intro d. apply same_refl.
  - exists (ws ++ ws'). cbn [map concat]. split; [apply Forall2_app; assumption|].
    intro d. rewrite after_app. change (queued q :: map queued qs) with ([queued q] ++ map queued qs).
    rewrite after_app. eapply same_trans; [apply after_same, G3|apply I2].
Qed.

Lemma image_id : forall e k i x w, image e k i x = Some w -> w_id w = i.
Proof.
  intros e k i x w H. unfold image in H. destruct (target e k i x) as [[a r]|]; [|discriminate].
  destruct (v_enc e a r (stored_view e k (c_view x))); [|discriminate]. injection H as <-. reflexivity.
Qed.

Lemma images_ids : forall e kd c l ws, Forall2 (fun i w => image e (kd i) i (c i) = Some w) l ws ->
  map w_id ws = l /\ Forall (fun w => image e (kd (w_id w)) (w_id w) (c (w_id w)) = Some w) ws.
Proof.
  intros e kd c l ws F. induction F as [|i w l ws H F [I1 I2]]; [split; constructor|].
  pose proof (image_id _ _ _ _ _ H) as E. cbn [map]. split; [congruence|]. constructor; [rewrite E; exact H|exact I2].
Qed.

Lemma ascending_app : forall a b, ascending a -> ascending b ->
  (forall x y, In x a -> In y b -> x <= y) -> ascending (a ++ b).
Proof.
  induction a as [|x a IH]; intros b A B H; [exact B|]. cbn [app]. cbn [ascending] in *. destruct A as [A1 A2].
  split; [|apply IH; auto; intros; apply H; [right|]; assumption].
  destruct a as [|y a]; cbn [app]; [|exact A1]. destruct b as [|y b]; [exact I|]. apply H; left; reflexivity.
Qed.

Lemma ascending_const : forall (f : Z -> Z) t l, (forall i, In i l -> f i = t) -> ascending (map f l).
Proof.
  intros f t. induction l as [|i l IH]; intro H; [exact I|]. cbn [map ascending].
  split; [|apply IH; intros; apply H; right; assumption]. destruct l as [|j l]; [exact I|]. cbn [map].
  rewrite (H i), (H j); [lia|right; left; reflexivity|left; reflexivity].
Qed.

Lemma rank_slot : forall k, rank k = slot_of k.
Proof. destruct k; reflexivity. Qed.

Lemma orders_asc : forall kd all slots orders,
  (forall pre x r, slots = pre ++ x :: r -> forall y, In y r -> x <= y) ->
  Forall2 (fun t o => Permutation o (in_slot kd t all)) slots orders ->
  ascending (map (fun i => rank (kd i)) (concat orders)).
Proof.
  intros kd all slots orders S F. induction F as [|t o slots orders P F IH]; [exact I|].
  assert (T : forall i, In i o -> rank (kd i) = t).
  { intros i Hi. rewrite rank_slot. eapply Permutation_in in Hi; [|exact P]. apply in_in_slot in Hi. tauto. }
  cbn [concat]. rewrite map_app. apply ascending_app.
  - exact (ascending_const (fun i => rank (kd i)) t o T).
  - apply IH. intros pre x r E y. apply (S (t :: pre) x r). cbn. congruence.
  - intros x y Hx Hy. apply in_map_iff in Hx. destruct Hx as (i & <- & Hi). rewrite (T i Hi).
    apply in_map_iff in Hy. destruct Hy as (j & <- & Hj).
    assert (exists t', In t' slots /\ rank (kd j) = t') as (t' & T1 & ->).
    { clear - F Hj. induction F as [|t' o' sl os P F IH]; [contradiction|]. cbn [concat] in Hj.
      apply in_app_or in Hj. destruct Hj as [Hj|Hj].
      - exists t'. split; [left; reflexivity|]. rewrite rank_slot. eapply Permutation_in in Hj; [|exact P].
        apply in_in_slot in Hj. tauto.
      - destruct (IH Hj) as (t2 & A & B). exists t2. split; [right; exact A|exact B]. }
    exact (S [] t slots eq_refl t' T1).
Qed.

Lemma orders_perm : forall kd all orders, 
  Forall2 (fun t o => Permutation o (in_slot kd t all)) [0; 1; 2] orders -> Permutation (concat orders) all.
Proof.
  intros kd all orders F. inversion F as [|t0 o0 r0 os0 P0 F0]; subst. inversion F0 as [|t1 o1 r1 os1 P1 F1]; subst.
  inversion F1 as [|t2 o2 r2 os2 P2 F2]; subst. inversion F2; subst. cbn [concat]. rewrite app_nil_r.
  eapply perm_trans; [apply Permutation_app; [exact P0|apply Permutation_app; [exact P1|exact P2]]|].
  clear. unfold in_slot. induction all as [|i l IH]; [constructor|]. cbn [filter].
  destruct (kd i); cbn [slot_of Z.eqb Pos.eqb].
  - cbn [app]. constructor. exact IH.
  - apply Permutation_sym. cbn [app]. eapply perm_trans; [|apply Permutation_middle].
    constructor. apply Permutation_sym. exact IH.
  - apply Permutation_sym. cbn [app]. eapply perm_trans; [|apply Permutation_middle].
    constructor. apply Permutation_sym. exact IH.
  - apply Permutation_sym. eapply perm_trans; [|rewrite app_assoc; apply Permutation_middle].
    constructor. rewrite <- app_assoc. apply Permutation_sym. exact IH.
  - apply Permutation_sym. eapply perm_trans; [|rewrite app_assoc; apply Permutation_middle].
    constructor. rewrite <- app_assoc. apply Permutation_sym. exact IH.
Qed.

Lemma collect_spec : forall e f o t oii flags w dom x f1 o1 t1, env_ok e -> rel (f_d f) w dom ->
  scope_ok w (scope_of oii flags) ->
  collect_flush e f o t oii flags = Some (x, f1, o1, t1) ->
  let kd := kind_of (f_d f) in
  (forall i, c_async (f_c f1 i) = c_async (f_c f i)
     /\ (c_view (f_c f1 i) = c_view (f_c f i)
         \/ (wants w (f_c f) (scope_of oii flags) i
             /\ c_view (f_c f1 i) = stored_view e (kd i) (c_view (f_c f i)))))
  /\ f_apex f <= f_apex f1 /\ a_wr o1 = a_wr o /\ (x <> Some EFUEL /\ x <> Some EIO)
  /\ (exists cl, drun (f_d f) (map Clean cl) = Some (f_d f1))
  /\ f_disk f1 = f_disk f
  /\ match x with
     | Some _ =>
         exists r order, f_q f1 = f_q f /\ t1 = t
           /\ (exists i, wants w (f_c f) (scope_of oii flags) i /\ rank (kd i) = r)
           /\ (forall i, In i order <-> wants w (f_c f) (scope_of oii flags) i /\ rank (kd i) < r)
           /\ rel (f_d f1) (clean_list w order) dom
     | None =>
         exists qs ws, f_q f1 = f_q f ++ qs /\ t1 = fold_left Z.max (map s_id qs) t
           /\ increasing (f_apex f) qs (f_apex f1)
           /\ NoDup (map w_id ws)
           /\ (forall i, In i (map w_id ws) <-> wants w (f_c f) (scope_of oii flags) i)
           /\ Forall (fun u => image e (kd (w_id u)) (w_id u) (f_c f (w_id u)) = Some u) ws
           /\ ascending (map (fun u => rank (kd (w_id u))) ws)
           /\ (forall d, same (after d (map queued qs)) (after d ws))
           /\ rel (f_d f1) (clean_list w (map w_id ws)) dom
           /\ (ws <> [] -> qs <> [])
     end.
Proof.
  intros e f o t oii flags w dom x f1 o1 t1 EO R OK H. cbv zeta. unfold collect_flush in H.
  destruct (fill_spec _ _ _ (f_c f) oii flags R OK) as [N M].
  set (all := fill_dsets (f_d f) (f_c f) oii flags) in *. set (kd := kind_of (f_d f)) in *.
  destruct (process_dsets [0; 1; 2] e kd (f_d f) (mkFl (f_c f) [] (f_apex f) o) all) as [[[y d1] l1]|] eqn:P;
    [|discriminate].
  assert (NS : NoDup [0; 1; 2]). { repeat constructor; cbn; intuition discriminate. }
  destruct (process_dsets_spec [0; 1; 2] e kd (f_d f) (mkFl (f_c f) [] (f_apex f) o) all w dom (f_c f) y d1 l1 EO R N NS
    (fun i _ _ => eq_refl) P) as (A1 & A2 & A3 & A4 & A5 & A6). cbn [l_c l_apex l_o l_txq] in *.
  assert (A1' : forall i, c_async (l_c l1 i) = c_async (f_c f i)
     /\ (c_view (l_c l1 i) = c_view (f_c f i)
         \/ (wants w (f_c f) (scope_of oii flags) i
             /\ c_view (l_c l1 i) = stored_view e (kd i) (c_view (f_c f i))))).
  { intro i. destruct (A1 i) as [B1 [B2|(B2 & _ & B3)]]; split; auto. right. split; [apply M; exact B2|exact B3]. }
  destruct y as [y|]; injection H as <- <- <- <-; cbn [f_c f_apex f_d f_disk f_q].
  - split; [exact A1'|]. split; [exact A2|]. split; [exact A3|]. split; [exact A4|]. split; [exact A5|].
    split; [reflexivity|]. destruct A6 as (pre & tt & post & order & B1 & B2 & B3 & B4).
    exists tt, order. split; [reflexivity|]. split; [reflexivity|]. split; [|split; [|exact B3]].
    + destruct (in_slot kd tt all) as [|i r] eqn:E; [congruence|]. exists i.
      assert (X : In i (in_slot kd tt all)) by (rewrite E; left; reflexivity).
      apply in_in_slot in X. rewrite rank_slot. split; [apply M|]; tauto.
    + intro i. assert (B2' : In i order <-> In i (slots_of kd pre all)).
      { split; apply Permutation_in; [exact B2|apply Permutation_sym; exact B2]. }
      rewrite B2', <- M, rank_slot. unfold slots_of. rewrite in_flat_map.
      assert (S : forall u, In u pre <-> (u = 0 \/ u = 1 \/ u = 2) /\ u < tt).
      { intro u. destruct pre as [|p0 [|p1 [|p2 [|p3 pre]]]]; cbn [app] in B1.
        - assert (tt = 0) by congruence. subst. cbn. lia.
        - assert (tt = 1 /\ p0 = 0) as [-> ->] by (split; congruence). cbn. lia.
        - assert (tt = 2 /\ p0 = 0 /\ p1 = 1) as (-> & -> & ->) by (repeat split; congruence). cbn. lia.
        - exfalso. discriminate.
        - exfalso. discriminate. }
      split.
      * intros (u & U1 & U2). apply in_in_slot in U2. apply S in U1. split; [tauto|lia].
      * intros [U1 U2]. exists (slot_of (kd i)). split; [apply S; split; [destruct (kd i); cbn; auto|exact U2]|].
        apply in_in_slot. auto.
  - split; [exact A1'|]. split; [exact A2|]. split; [exact A3|]. split; [split; discriminate|]. split; [exact A5|].
    split; [reflexivity|]. destruct A6 as (orders & qs & B1 & B2 & B3 & B4 & B5 & B6). cbn [app] in B2. rewrite B2.
    destruct (good_concat _ _ _ _ B4) as (ws & G1 & G2). rewrite B3 in G1.
    destruct (images_ids _ _ _ _ _ G1) as [G3 G4].
    pose proof (orders_perm _ _ _ B1) as PM.
    exists qs, ws. split; [reflexivity|]. split; [reflexivity|]. split; [exact B5|]. rewrite G3.
    split; [eapply Permutation_NoDup; [apply Permutation_sym; exact PM|exact N]|].
    split.
    { intro i. rewrite <- M. split; apply Permutation_in; [exact PM|apply Permutation_sym; exact PM]. }
    split; [exact G4|]. split.
    { replace (map (fun u => rank (kd (w_id u))) ws) with (map (fun i => rank (kd i)) (map w_id ws))
        by (rewrite map_map; reflexivity). rewrite G3. apply (orders_asc kd all [0; 1; 2]); [|exact B1].
      intros pre x r E y Hy. destruct pre as [|p0 [|p1 [|p2 [|p3 pre]]]]; cbn [app] in E; try discriminate.
      - assert (x = 0 /\ r = [1; 2]) as [-> ->] by (split; congruence). cbn in Hy. lia.
      - assert (x = 1 /\ r = [2]) as [-> ->] by (split; congruence). cbn in Hy. lia.
      - assert (x = 2 /\ r = []) as [-> ->] by (split; congruence). cbn in Hy. lia. }
    split; [exact G2|]. split; [exact B6|].
    intros Hws Hqs. rewrite Hqs in B3. cbn in B3. rewrite <- B3 in G1. inversion G1. congruence.
Qed.

(* ------------------------------------------------------------------ *)
(* Theorems *)

(* a state reached by some history of the dirty queues, with writes possibly still queued *)
Definition at_history (hist : list dop) (f : fst_) : Prop :=
  Forall op_ok hist /\ drun d_init hist = Some (f_d f) /\ 0 < f_apex f
  /\ Forall (fun q => s_id q < f_apex f) (f_q f).

Definition world_of (hist : list dop) : world := wrun [] empty_world hist.

Lemma history_rel : forall hist f, at_history hist f -> exists dom, rel (f_d f) (world_of hist) dom.
Proof.
  intros hist f (F & H & _ & _). destruct (rel_run hist _ _ _ rel_init F) as (s & dom & H1 & R).
  exists dom. assert (s = f_d f) by congruence. subst s. exact R.
Qed.

Lemma cleaned_dirty : forall d w dom d1 l i, rel d w dom -> rel d1 (clean_list w l) dom ->
  isdirty d1 i = true <-> isdirty d i = true /\ ~ In i l.
Proof.
  intros. rewrite (rel_isdirty _ _ _ _ H0), (rel_isdirty _ _ _ _ H), wdirty_clean_list.
  destruct (existsb (Z.eqb i) l) eqn:X.
  - apply existsb_eqb_in in X. split; [congruence|tauto].
  - split; [|tauto]. intro Y. split; [exact Y|]. intro Z1. apply existsb_eqb_in in Z1. congruence.
Qed.

Lemma sync_flush : forall e f o tapex lowmem x f2 o2 t2,
  flush_dirty e f o tapex None F_NOW lowmem = Some (x, f2, o2, t2) ->
  exists y f1 o1 t1, collect_flush e f o tapex None F_NOW = Some (y, f1, o1, t1)
    /\ match y with
       | Some _ => x = y /\ f2 = f1
       | None => exists q d wr, submitq_apply CID_ALL (f_q f1) (f_disk f1) (a_wr o1) = (x, q, d, wr)
                   /\ f2 = mkF (f_d f1) (f_c f1) q (f_apex f1) d
       end.
Proof.
  intros e f o tapex lowmem x f2 o2 t2 H. unfold flush_dirty, need_flush, need_flush_now in H.
  change (hasf F_NOW F_NOW) with true in H. cbn [orb negb] in H.
  destruct (collect_flush e f o tapex None F_NOW) as [[[[y f1] o1] t1]|]; [|discriminate].
  exists y, f1, o1, t1. split; [reflexivity|]. destruct y as [y|]; [split; congruence|].
  unfold task_submit in H. cbn [orb] in H.
  destruct (submitq_apply CID_ALL (f_q f1) (f_disk f1) (a_wr o1)) as [[[r q] d] wr] eqn:S.
  exists q, d, wr. split; congruence.
Qed.

(* A successful syncfs writes each dirty object it finds exactly once, with its current
   contents, at its own address, data first, space maps last, after the writes that were
   queued before; it changes nothing else in storage, leaves no write queued, and exactly
   the written objects are clean afterwards.  (fewer than 2^64 writes were ever queued) *)
Theorem C33_syncfs_writes : forall e hist f o lowmem f2 o2 t2, env_ok e -> at_history hist f ->
  flush_dirty e f o 0 None F_NOW lowmem = Some (None, f2, o2, t2) -> f_apex f2 <= 2 ^ 64 ->
  let kd := kind_of (f_d f) in
  exists ws, NoDup (map w_id ws)
    /\ (forall i, In i (map w_id ws) <-> wants (world_of hist) (f_c f) None i)
    /\ Forall (fun u => image e (kd (w_id u)) (w_id u) (f_c f (w_id u)) = Some u) ws
    /\ ascending (map (fun u => rank (kd (w_id u))) ws)
    /\ same (f_disk f2) (after (after (f_disk f) (map queued (f_q f))) ws)
    /\ f_q f2 = []
    /\ (forall i, isdirty (f_d f2) i = true <-> isdirty (f_d f) i = true /\ ~ In i (map w_id ws)).
Proof.
  intros e hist f o lowmem f2 o2 t2 EO AH H AP. cbv zeta.
  destruct (history_rel _ _ AH) as (dom & R). destruct AH as (_ & _ & AP0 & AQ).
  destruct (sync_flush _ _ _ _ _ _ _ _ _ H) as (y & f1 & o1 & t1 & C & Y).
  assert (SO : scope_ok (world_of hist) (scope_of None F_NOW)) by exact I.
  destruct (collect_spec _ _ _ _ _ _ _ _ _ _ _ _ EO R SO C) as (_ & A2 & _ & _ & _ & A6 & A7).
  destruct y as [y|]; [destruct Y; discriminate|]. destruct Y as (q & d & wr & S & ->).
  destruct A7 as (qs & ws & B1 & B2 & B3 & B4 & B5 & B6 & B7 & B8 & B9 & _).
  exists ws. split; [exact B4|]. split; [exact B5|]. split; [exact B6|]. split; [exact B7|].
  cbn [f_disk f_q f_d f_apex] in *.
  assert (ID : Forall (fun x => s_id x <= CID_ALL) (f_q f1)).
  { rewrite B1. apply Forall_app. unfold CID_ALL. split.
    - eapply Forall_impl; [|exact AQ]. cbn. intros. lia.
    - eapply Forall_impl; [|exact (increasing_bounds (kind_of (f_d f)) _ _ _ B3)]. cbn. intros. lia. }
  destruct (submitq_apply_all _ _ _ _ _ _ _ _ ID S eq_refl) as [-> D].
  split.
  { eapply same_trans; [exact D|]. rewrite B1, map_app, after_app, A6. apply B8. }
  split; [reflexivity|]. intro i. exact (cleaned_dirty _ _ _ _ _ i R B9).
Qed.

(* A file system in which every object that is dirty on behalf of an inode has its inode
   dirty too, and no asynchronous writes are running, is all clean after a successful
   syncfs. *)
Theorem C33_syncfs_all_clean : forall e hist f o lowmem f2 o2 t2, env_ok e -> at_history hist f ->
  flush_dirty e f o 0 None F_NOW lowmem = Some (None, f2, o2, t2) -> f_apex f2 <= 2 ^ 64 ->
  (forall i, c_async (f_c f i) = false) ->
  (forall i ii, wdirty (world_of hist) i = Some (OwnInode ii) -> wdirty (world_of hist) ii <> None) ->
  forall i, isdirty (f_d f2) i = false.
Proof.
  intros e hist f o lowmem f2 o2 t2 EO AH H AP HA HI i.
  destruct (C33_syncfs_writes _ _ _ _ _ _ _ _ EO AH H AP) as (ws & _ & W & _ & _ & _ & _ & D).
  destruct (history_rel _ _ AH) as (dom & R).
  destruct (isdirty (f_d f2) i) eqn:X; [|reflexivity]. exfalso. apply D in X. destruct X as [X1 X2]. apply X2, W.
  apply (rel_isdirty _ _ _ _ R) in X1. cbn [wants]. destruct (wdirty (world_of hist) i) as [[| | |ii]|] eqn:E; auto.
  split; [apply HA|]. exact (HI _ _ E).
Qed.

Lemma fold_max_ge : forall l t x, In x l -> x <= fold_left Z.max l t.
Proof.
  assert (G : forall l t, t <= fold_left Z.max l t).
  { induction l as [|y l IH]; intro t; cbn; [lia|]. eapply Z.le_trans; [|apply IH]. lia. }
  induction l as [|y l IH]; intros t x H; [contradiction|]. cbn. destruct H as [->|H]; [|apply IH; exact H].
  eapply Z.le_trans; [|apply G]. lia.
Qed.

(* fsync of a file that has dirty objects queued under it: the writes it queues are exactly
   those objects, the inode, and the common metadata; when the submission that follows the
   reply succeeds too, they are all in storage. *)
Theorem C33_fsync_writes : forall e hist f o ii lowmem f1 f2, env_ok e -> at_history hist f ->
  (exists x, world_of hist ii = Some x /\ is_inode (o_kind x) = true) ->
  (exists i, wdirty (world_of hist) i = Some (OwnInode ii)) ->
  fsync_request e f o ii lowmem = Some (None, f1, f2, None) ->
  let kd := kind_of (f_d f) in
  exists ws, NoDup (map w_id ws)
    /\ (forall i, In i (map w_id ws) <-> wants (world_of hist) (f_c f) (Some ii) i)
    /\ Forall (fun u => image e (kd (w_id u)) (w_id u) (f_c f (w_id u)) = Some u) ws
    /\ ascending (map (fun u => rank (kd (w_id u))) ws)
    /\ same (f_disk f2) (after (after (f_disk f) (map queued (f_q f))) ws)
    /\ (forall i, isdirty (f_d f2) i = true <-> isdirty (f_d f) i = true /\ ~ In i (map w_id ws)).
Proof.
  intros e hist f o ii lowmem f1 f2 EO AH (x & WX & KX) (i0 & HI) H. cbv zeta.
  destruct (history_rel _ _ AH) as (dom & R).
  destruct (C32_fsync_decision hist ii (proj1 AH)) as (s & HS & HD).
  assert (s = f_d f) by (destruct AH as (_ & X & _); congruence). subst s.
  assert (ASK : flush_dirty_of_asks (f_d f) ii F_FSYNC false = true) by (apply HD; eauto).
  unfold flush_dirty_of_asks in ASK. apply andb_true_iff in ASK. destruct ASK as [ASK1 ASK2].
  assert (NF : need_flush (f_d f) (Some ii) F_FSYNC lowmem = true).
  { unfold need_flush, need_flush_now in *. change (hasf F_FSYNC F_NOW) with false in *. cbn [orb] in *.
    destruct lowmem; [reflexivity|exact ASK2]. }
  unfold fsync_request, flush_dirty_of, flush_dirty in H. rewrite ASK1, NF in H. cbn [negb] in H.
  destruct (collect_flush e f o 0 (Some ii) F_FSYNC) as [[[[y g1] o1] t1]|] eqn:C; [|discriminate].
  assert (SO : scope_ok (world_of hist) (scope_of (Some ii) F_FSYNC)) by (cbn; rewrite WX; exact KX).
  destruct (collect_spec _ _ _ _ _ _ _ _ _ _ _ _ EO R SO C) as (_ & A2 & _ & _ & _ & A6 & A7).
  change (scope_of (Some ii) F_FSYNC) with (Some ii) in A7.
  destruct y as [y|]; change (hasf F_FSYNC F_NOW) with false in H; cbn [finish_request] in H.
  { destruct (task_submit false t1 g1 o1) as [[r2 f3] o3]. discriminate. }
  destruct A7 as (qs & ws & B1 & B2 & B3 & B4 & B5 & B6 & B7 & B8 & B9 & B10).
  assert (NW : ws <> []).
  { intro X. subst ws. assert (In ii (map w_id [])) by (apply B5; left; reflexivity). contradiction. }
  specialize (B10 NW).
  exists ws. split; [exact B4|]. split; [exact B5|]. split; [exact B6|]. split; [exact B7|].
  destruct AH as (_ & _ & AP0 & AQ).
  assert (TP : 0 < t1).
  { destruct qs as [|q0 qs]; [congruence|]. cbn [increasing] in B3. destruct B3 as [B3 _]. rewrite B2.
    assert (s_id q0 <= fold_left Z.max (map s_id (q0 :: qs)) 0) by (apply fold_max_ge; left; reflexivity). lia. }
  assert (LE : Forall (fun q => s_id q <= t1) (f_q g1)).
  { rewrite B1. apply Forall_app. rewrite B2. split.
    - destruct qs as [|q0 qs]; [congruence|]. cbn [increasing] in B3. destruct B3 as [B3 _].
      assert (s_id q0 <= fold_left Z.max (map s_id (q0 :: qs)) 0) by (apply fold_max_ge; left; reflexivity).
      eapply Forall_impl; [|exact AQ]. cbn beta. intros a Ha. lia.
    - apply Forall_forall. intros q Hq. apply fold_max_ge. apply in_map. exact Hq. }
  unfold task_submit in H. cbn [orb] in H.
  destruct (Z.eqb_spec t1 0) as [Z0|Z0].
  - lia.
  - cbn [negb] in H. destruct (submitq_apply t1 (f_q g1) (f_disk g1) (a_wr o1)) as [[[r q] d] wr] eqn:S.
    injection H as _ <- Hr. subst r. cbn [f_disk f_d].
    destruct (submitq_apply_all _ _ _ _ _ _ _ _ LE S eq_refl) as [-> D].
    split; [eapply same_trans; [exact D|]; rewrite B1, map_app, after_app, A6; apply B8|].
    intro i. exact (cleaned_dirty _ _ _ _ _ i R B9).
Qed.

(* An fsync writes nothing at all before it replies. *)
Theorem C33_fsync_reply_first : forall e f o ii lowmem reply f1 f2 r2,
  fsync_request e f o ii lowmem = Some (reply, f1, f2, r2) -> f_disk f1 = f_disk f.
Proof.
  intros e f o ii lowmem reply f1 f2 r2 H. unfold fsync_request, flush_dirty_of, flush_dirty, collect_flush in H.
  destruct (isdirty (f_d f) ii || negb (q_accum (d_q (f_d f) (QOf ii)) =? 0)).
  - destruct (negb (need_flush (f_d f) (Some ii) F_FSYNC lowmem)).
    + cbn [finish_request] in H. destruct (task_submit false 0 f o) as [[r f3] o3]. congruence.
    + destruct (process_dsets _ _ _ _ _ _) as [[[y d1] l1]|]; [|discriminate].
      destruct y as [y|]; change (hasf F_FSYNC F_NOW) with false in H; cbn [finish_request] in H;
        destruct (task_submit _ _ _ _) as [[r f3] o3]; injection H as <- <- <- <-; reflexivity.
  - cbn [finish_request] in H. destruct (task_submit false 0 f o) as [[r f3] o3]. congruence.
Qed.

(* No flush runs into a failed assertion, whatever the history and whatever fails. *)
Lemma process_dsets_total : forall slots e kd d l all w dom, env_ok e -> rel d w dom -> NoDup all -> NoDup slots ->
  process_dsets slots e kd d l all <> None.
Proof.
  induction slots as [|t slots IH]; intros e kd d l all w dom EO R N NS; cbn [process_dsets]; [discriminate|].
  inversion NS as [|? ? _ NS']; subst.
  destruct (process_dset e kd d l (in_slot kd t all)) as [[[x d1] l1]|] eqn:P.
  - destruct x as [x|]; [discriminate|].
    assert (N' : NoDup (in_slot kd t all)) by (apply NoDup_filter; exact N).
    destruct (process_dset_spec _ _ _ _ _ _ _ (l_c l) _ _ _ EO R N' (fun i _ => eq_refl) P)
      as (_ & _ & _ & _ & _ & _ & order & qs & _ & _ & _ & _ & _ & R1).
    exact (IH _ _ _ _ _ _ _ EO R1 N NS').
  - exfalso. unfold process_dset in P. destruct (in_slot kd t all) as [|m r]; [discriminate|].
    destruct (enqueue_dset _ _ _ _ _ _) as [[y l2] postq]. destruct y as [y|]; [discriminate|].
    destruct (rel_undirtify_list postq _ _ _ R) as (d3 & U2 & _). rewrite U2 in P. discriminate.
Qed.

Theorem C33_flush_defined : forall e hist f o tapex oii flags lowmem, env_ok e -> at_history hist f ->
  (forall ii, oii = Some ii -> exists x, world_of hist ii = Some x /\ is_inode (o_kind x) = true) ->
  flush_dirty e f o tapex oii flags lowmem <> None.
Proof.
  intros e hist f o tapex oii flags lowmem EO AH HI. destruct (history_rel _ _ AH) as (dom & R).
  unfold flush_dirty. destruct (negb (need_flush (f_d f) oii flags lowmem)); [discriminate|].
  assert (SO : scope_ok (world_of hist) (scope_of oii flags)).
  { unfold scope_of. destruct (hasf flags F_NOW); [exact I|]. destruct oii as [ii|]; [|exact I].
    destruct (HI ii eq_refl) as (x & W & K). cbn. rewrite W. exact K. }
  destruct (fill_spec _ _ _ (f_c f) oii flags R SO) as [N _].
  assert (NS : NoDup [0; 1; 2]). { repeat constructor; cbn; intuition discriminate. }
  pose proof (process_dsets_total [0; 1; 2] e (kind_of (f_d f)) (f_d f) (mkFl (f_c f) [] (f_apex f) o) _ _ _ EO R N NS) as T.
  unfold collect_flush. destruct (process_dsets _ _ _ _ _ _) as [[[y d1] l1]|]; [|congruence].
  destruct y as [y|]; [discriminate|]. destruct (hasf flags F_NOW); [|discriminate].
  destruct (task_submit _ _ _ _) as [[r f3] o3]. discriminate.
Qed.

(* ---- C34 ---- *)

(* A flush that fails while it collects (no memory, staging a segment fails, encryption
   fails, read-only address...) fails at some rank r: nothing is written, nothing is
   queued, every object of rank r or higher stays dirty, the objects keep their contents
   (metadata may have been sealed), and the resulting state is one that a history of the
   queues leads to, so that C33_syncfs_writes applies to the next attempt.
   What is missing to the full claim: objects of lower rank are clean by then, see
   C34_partial_flush_refuted. *)
Theorem C34_collect_failure_partial : forall e hist f o t oii flags x f1 o1 t1, env_ok e -> at_history hist f ->
  scope_ok (world_of hist) (scope_of oii flags) ->
  collect_flush e f o t oii flags = Some (Some x, f1, o1, t1) ->
  let kd := kind_of (f_d f) in
  f_disk f1 = f_disk f /\ f_q f1 = f_q f /\ t1 = t
  /\ (exists cl, at_history (hist ++ map Clean cl) f1)
  /\ (forall i, c_view (f_c f1 i) = c_view (f_c f i)
       \/ c_view (f_c f1 i) = stored_view e (kd i) (c_view (f_c f i)))
  /\ exists r, (exists i, wants (world_of hist) (f_c f) (scope_of oii flags) i /\ rank (kd i) = r)
       /\ forall i, isdirty (f_d f1) i = true <->
            isdirty (f_d f) i = true
            /\ ~ (wants (world_of hist) (f_c f) (scope_of oii flags) i /\ rank (kd i) < r).
Proof.
  intros e hist f o t oii flags x f1 o1 t1 EO AH SO H. cbv zeta. destruct (history_rel _ _ AH) as (dom & R).
  destruct (collect_spec _ _ _ _ _ _ _ _ _ _ _ _ EO R SO H) as (A1 & A2 & _ & _ & (cl & A5) & A6 & r & order & B1 & B2 & B3 & B4 & B5).
  split; [exact A6|]. split; [exact B1|]. split; [exact B2|]. split.
  { exists cl. destruct AH as (H1 & H2 & H3 & H4). split.
    - apply Forall_app. split; [exact H1|]. apply Forall_forall. intros y Hy. apply in_map_iff in Hy.
      destruct Hy as (j & <- & _). exact I.
    - split; [rewrite drun_app, H2; exact A5|]. split; [lia|]. rewrite B1.
      eapply Forall_impl; [|exact H4]. cbn beta. intros. lia. }
  split; [intro i; destruct (A1 i) as [_ [X|[_ X]]]; auto|].
  exists r. split; [exact B3|]. intro i. rewrite (cleaned_dirty _ _ _ _ _ i R B5), B4. reflexivity.
Qed.

Lemma submitq_apply_fail : forall id q d wr x q2 d2 wr2, submitq_apply id q d wr = (Some x, q2, d2, wr2) ->
  x = EIO /\ exists pre y k, q = pre ++ y :: q2
    /\ same d2 (after (after d (map queued pre))
                  [mkW (s_id y) (la_lsid (s_laddr y)) (la_pos (s_laddr y)) (ztake k (concat (s_iov y)))]).
Proof.
  induction q as [|y q IH]; intros d wr x q2 d2 wr2 H; cbn [submitq_apply] in H; [discriminate|].
  destruct (id <? s_id y); [discriminate|]. destruct (pop None wr) as [w wr1]. unfold write_sqe in H.
  destruct w as [k|].
  - injection H as <- <- <- <-. split; [reflexivity|]. exists [], y, k. split; [reflexivity|].
    cbn [map]. apply disk_put_after.
  - apply IH in H. destruct H as (-> & pre & z & k & -> & S). split; [reflexivity|]. exists (y :: pre), z, k.
    split; [reflexivity|]. eapply same_trans; [exact S|]. apply after_same. cbn [map].
    change (queued y :: map queued pre) with ([queued y] ++ map queued pre). rewrite after_app. apply after_same.
    unfold queued. apply disk_put_after.
Qed.

(* A syncfs that fails with the error of a write: everything collected was queued behind
   the older writes; the entries before the failing one are in storage, of the failing one
   the first k bytes are, and the entries behind it stay queued, for the next submission.
   What is missing to the full claim: the failing entry is dropped and its objects are
   clean by then, see C34_write_error_refuted. *)
Theorem C34_write_failure_partial : forall e hist f o lowmem f2 o2 t2, env_ok e -> at_history hist f ->
  flush_dirty e f o 0 None F_NOW lowmem = Some (Some EIO, f2, o2, t2) ->
  let kd := kind_of (f_d f) in
  exists ws qs pre lost k, f_q f ++ qs = pre ++ lost :: f_q f2
    /\ (forall d, same (after d (map queued qs)) (after d ws))
    /\ (forall i, In i (map w_id ws) <-> wants (world_of hist) (f_c f) None i)
    /\ Forall (fun u => image e (kd (w_id u)) (w_id u) (f_c f (w_id u)) = Some u) ws
    /\ same (f_disk f2) (after (after (f_disk f) (map queued pre))
         [mkW (s_id lost) (la_lsid (s_laddr lost)) (la_pos (s_laddr lost)) (ztake k (concat (s_iov lost)))])
    /\ (forall i, isdirty (f_d f2) i = true <-> isdirty (f_d f) i = true /\ ~ In i (map w_id ws))
    /\ exists cl, at_history (hist ++ map Clean cl) f2.
Proof.
  intros e hist f o lowmem f2 o2 t2 EO AH H. cbv zeta. destruct (history_rel _ _ AH) as (dom & R).
  destruct (sync_flush _ _ _ _ _ _ _ _ _ H) as (y & f1 & o1 & t1 & C & Y).
  assert (SO : scope_ok (world_of hist) (scope_of None F_NOW)) by exact I.
  destruct (collect_spec _ _ _ _ _ _ _ _ _ _ _ _ EO R SO C) as (_ & A2 & _ & A4 & (cl & A5) & A6 & A7).
  destruct y as [y|]; [destruct Y as [Y _]; destruct A4; congruence|]. destruct Y as (q & d & wr & S & ->).
  destruct A7 as (qs & ws & B1 & B2 & B3 & B4 & B5 & B6 & B7 & B8 & B9 & _).
  destruct (submitq_apply_fail _ _ _ _ _ _ _ _ S) as (_ & pre & lost & k & E & D).
  exists ws, qs, pre, lost, k. cbn [f_q f_disk f_d]. split; [congruence|]. split; [exact B8|]. split; [exact B5|].
  split; [exact B6|]. split; [rewrite <- A6; exact D|]. split; [intro i; exact (cleaned_dirty _ _ _ _ _ i R B9)|].
  exists cl. destruct AH as (H1 & H2 & H3 & H4). split.
  - apply Forall_app. split; [exact H1|]. apply Forall_forall. intros z Hz. apply in_map_iff in Hz.
    destruct Hz as (j & <- & _). exact I.
  - cbn [f_d f_apex f_q]. split; [rewrite drun_app, H2; exact A5|]. split; [lia|].
    assert (ALL : Forall (fun q0 => s_id q0 < f_apex f1) (f_q f1)).
    { rewrite B1. apply Forall_app. split.
      - eapply Forall_impl; [|exact H4]. cbn beta. intros. lia.
      - eapply Forall_impl; [|exact (increasing_bounds (kind_of (f_d f)) _ _ _ B3)]. cbn beta. intros. lia. }
    rewrite E in ALL. apply Forall_app in ALL. destruct ALL as [_ ALL]. inversion ALL; assumption.
Qed.

(* ------------------------------------------------------------------ *)
(* Examples and counterexamples: an inode (1) with a dirty data block (2) and a dirty tree
   node (3), and a dirty space map (4), four bytes each, one after the other *)

Definition ex_seg : lsid := mkLsid [7] 16777216 0 0 0 0.
Definition ex_env : env :=
  mkEnv (fun l => l) (fun a _ v => if zlen v =? la_len a then Some v else None) (fun v => v)
        (fun _ => true) (fun _ => None).
Definition ex_cont (i : Z) : cont := mkC (mkLaddr ex_seg (4 * i) 4) [] [i; i; i; i] false.
Definition ex_ops : list dop :=
  [Create 1 KInode 1024; Create 2 KData 65536; Create 3 KMeta 8192; Create 4 KUnode 32768;
   DirtyV 2 1; DirtyV 3 1; DirtyI 1; DirtyU 4].
Definition ex_dst (ops : list dop) : dst := match drun d_init ops with Some d => d | None => d_init end.
Definition ex_st (ops : list dop) : fst_ := mkF (ex_dst ops) ex_cont [] 1 (fun _ _ => 0).

Lemma ex_env_ok : env_ok ex_env.
Proof.
  constructor; [intro l; apply Permutation_refl|]. intros a r v b H. cbn in H.
  destruct (Z.eqb_spec (zlen v) (la_len a)); [congruence|discriminate].
Qed.

Lemma ex_ops_ok : Forall op_ok ex_ops.
Proof. repeat constructor; cbn; lia. Qed.

Example ex_history : at_history ex_ops (ex_st ex_ops).
Proof.
  split; [exact ex_ops_ok|]. split; [vm_compute; reflexivity|]. split; [reflexivity|]. constructor.
Qed.

(* what a reader sees at byte p of the segment *)
Definition ex_at (f : fst_) (p : Z) : Z := f_disk f ex_seg p.

Example C33_syncfs_writes_ex : exists f2 o2 t2,
  flush_dirty ex_env (ex_st ex_ops) (mkOrc [] [] []) 0 None F_NOW false = Some (None, f2, o2, t2)
  /\ f_apex f2 <= 2 ^ 64
  /\ map (ex_at f2) [4; 7; 8; 11; 12; 15; 16; 19; 20] = [1; 1; 2; 2; 3; 3; 4; 4; 0]
  /\ map (isdirty (f_d f2)) [1; 2; 3; 4] = [false; false; false; false].
Proof.
  eexists. eexists. eexists. split; [vm_compute; reflexivity|]. split; [vm_compute; discriminate|].
  split; [vm_compute; reflexivity|]. vm_compute. reflexivity.
Qed.

Example C33_syncfs_all_clean_ex : (forall i, c_async (f_c (ex_st ex_ops) i) = false)
  /\ forall i ii, wdirty (world_of ex_ops) i = Some (OwnInode ii) -> wdirty (world_of ex_ops) ii <> None.
Proof.
  split; [reflexivity|]. intros i ii H.
  assert (ii = 1) as ->; [|vm_compute; discriminate].
  unfold wdirty, world_of, ex_ops in H. cbn in H.
  unfold mark, fset in H. repeat (destruct (_ =? _) in H; cbn in H; try congruence).
Qed.

Example C33_fsync_writes_ex : exists f1 f2,
  fsync_request ex_env (ex_st ex_ops) (mkOrc [] [] []) 1 false = Some (None, f1, f2, None)
  /\ map (ex_at f1) [4; 8; 12; 16] = [0; 0; 0; 0] /\ map (ex_at f2) [4; 8; 12; 16] = [1; 2; 3; 4]
  /\ wdirty (world_of ex_ops) 2 = Some (OwnInode 1).
Proof.
  eexists. eexists. split; [vm_compute; reflexivity|]. split; [vm_compute; reflexivity|].
  split; [vm_compute; reflexivity|]. vm_compute. reflexivity.
Qed.

(* the second vectored write cannot get memory, after five attempts *)
Definition ex_nomem : orc := mkOrc [true; true; false; false; false; false; false] [] [].

Example C34_collect_failure_partial_ex : exists f1 o1,
  collect_flush ex_env (ex_st ex_ops) ex_nomem 0 None F_NOW = Some (Some ENOMEM, f1, o1, 0)
  /\ map (isdirty (f_d f1)) [1; 2; 3; 4] = [true; false; true; true].
Proof.
  eexists. eexists. split; [vm_compute; reflexivity|]. vm_compute. reflexivity.
Qed.

(* the second of three writes fails after two bytes *)
Definition ex_eio : orc := mkOrc [] [] [None; Some 2].

Example C34_write_failure_partial_ex : exists f2 o2 t2,
  flush_dirty ex_env (ex_st ex_ops) ex_eio 0 None F_NOW false = Some (Some EIO, f2, o2, t2)
  /\ map (ex_at f2) [4; 5; 6; 7; 8; 11; 12; 15; 16] = [1; 1; 0; 0; 2; 2; 0; 0; 0]
  /\ length (f_q f2) = 2%nat.
Proof.
  eexists. eexists. eexists. split; [vm_compute; reflexivity|]. split; [vm_compute; reflexivity|].
  vm_compute. reflexivity.
Qed.

(* the image of object i in storage as of f is not what was to be written from f0 *)
Definition lost (e : env) (f0 f : fst_) (i : Z) : Prop :=
  exists u p, image e (kind_of (f_d f0) i) i (f_c f0 i) = Some u
    /\ 0 <= p < zlen (w_bytes u) /\ f_disk f (w_seg u) (w_pos u + p) <> znth (w_bytes u) p 0.

Definition no_faults : orc := mkOrc [] [] [].

(* Full claim of C34: when a flush fails, everything not written stays dirty and is written
   by the next successful sync.  False: the metadata cannot be collected for lack of memory,
   the data collected before is dropped, but is clean already; the next sync succeeds and
   the data is lost. *)
Theorem C34_partial_flush_refuted : exists e hist f o f1 o1 t1 f2 o2 t2 i,
  env_ok e /\ at_history hist f /\ isdirty (f_d f) i = true
  /\ flush_dirty e f o 0 None F_NOW false = Some (Some ENOMEM, f1, o1, t1)
  /\ flush_dirty e f1 no_faults 0 None F_NOW false = Some (None, f2, o2, t2)
  /\ isdirty (f_d f2) i = false /\ f_q f2 = [] /\ lost e f f2 i.
Proof.
  exists ex_env, ex_ops, (ex_st ex_ops), ex_nomem.
  eexists. eexists. eexists. eexists. eexists. eexists. exists 2.
  split; [exact ex_env_ok|]. split; [exact ex_history|]. split; [vm_compute; reflexivity|].
  split; [vm_compute; reflexivity|]. split; [vm_compute; reflexivity|].
  split; [vm_compute; reflexivity|]. split; [vm_compute; reflexivity|].
  exists (mkW 2 ex_seg 8 [2; 2; 2; 2]), 0. split; [vm_compute; reflexivity|].
  split; [vm_compute; split; [discriminate|reflexivity]|]. vm_compute. discriminate.
Qed.

(* The same after an error of the backing store: the failed write is dropped, its objects
   are clean already; the next sync succeeds and does not write them again. *)
Theorem C34_write_error_refuted : exists e hist f o f1 o1 t1 f2 o2 t2 i,
  env_ok e /\ at_history hist f /\ isdirty (f_d f) i = true
  /\ flush_dirty e f o 0 None F_NOW false = Some (Some EIO, f1, o1, t1)
  /\ flush_dirty e f1 no_faults 0 None F_NOW false = Some (None, f2, o2, t2)
  /\ isdirty (f_d f2) i = false /\ f_q f2 = [] /\ lost e f f2 i.
Proof.
  exists ex_env, ex_ops, (ex_st ex_ops), ex_eio.
  eexists. eexists. eexists. eexists. eexists. eexists. exists 1.
  split; [exact ex_env_ok|]. split; [exact ex_history|]. split; [vm_compute; reflexivity|].
  split; [vm_compute; reflexivity|]. split; [vm_compute; reflexivity|].
  split; [vm_compute; reflexivity|]. split; [vm_compute; reflexivity|].
  exists (mkW 1 ex_seg 4 [1; 1; 1; 1]), 2. split; [vm_compute; reflexivity|].
  split; [vm_compute; split; [discriminate|reflexivity]|]. vm_compute. discriminate.
Qed.

(* Full claim of C33 for fsync: once it replies success, what was dirty is in storage.
   False: the writes come after the reply, and their failure is reported to nobody; here
   the data block is clean and in storage it is not. *)
Theorem C33_fsync_unreported_refuted : exists e hist f o f1 f2 i,
  env_ok e /\ at_history hist f /\ wdirty (world_of hist) i = Some (OwnInode 1)
  /\ fsync_request e f o 1 false = Some (None, f1, f2, Some EIO)
  /\ isdirty (f_d f2) i = false /\ Forall (fun q => ~ In i (s_lni q)) (f_q f2) /\ lost e f f2 i.
Proof.
  exists ex_env, ex_ops, (ex_st ex_ops), (mkOrc [] [] [Some 0]). eexists. eexists. exists 2.
  split; [exact ex_env_ok|]. split; [exact ex_history|]. split; [vm_compute; reflexivity|].
  split; [vm_compute; reflexivity|]. split; [vm_compute; reflexivity|].
  split; [vm_compute; repeat constructor; intuition discriminate|].
  exists (mkW 2 ex_seg 8 [2; 2; 2; 2]), 0. split; [vm_compute; reflexivity|].
  split; [vm_compute; split; [discriminate|reflexivity]|]. vm_compute. discriminate.
Qed.

(* fsync of a file of which only the inode is dirty (a chmod, say) writes nothing, without
   any fault. *)
Theorem C33_fsync_inode_refuted : exists e hist f f2,
  env_ok e /\ at_history hist f /\ isdirty (f_d f) 1 = true
  /\ fsync_request e f no_faults 1 false = Some (None, f2, f2, None)
  /\ isdirty (f_d f2) 1 = true /\ f_disk f2 = f_disk f /\ f_q f2 = [] /\ lost e f f2 1.
Proof.
  exists ex_env, [Create 1 KInode 1024; DirtyI 1], (ex_st [Create 1 KInode 1024; DirtyI 1]). eexists.
  split; [exact ex_env_ok|]. split.
  { split; [repeat constructor; cbn; lia|]. split; [vm_compute; reflexivity|]. split; [reflexivity|constructor]. }
  split; [vm_compute; reflexivity|]. split; [vm_compute; reflexivity|]. split; [vm_compute; reflexivity|].
  split; [reflexivity|]. split; [reflexivity|].
  exists (mkW 1 ex_seg 4 [1; 1; 1; 1]), 0. split; [vm_compute; reflexivity|].
  split; [vm_compute; split; [discriminate|reflexivity]|]. vm_compute. discriminate.
Qed.

(* syncfs does not write a node that is dirty on behalf of an inode which itself is not:
   it walks the queues of dirty inodes only.  An operation that fails between changing the
   node and updating the inode (filc_fallocate, lib/file.c:3811-3829) leaves such a node. *)
Theorem C33_syncfs_misses_refuted : exists e hist f f2 o2 t2 i,
  env_ok e /\ at_history hist f /\ isdirty (f_d f) i = true
  /\ flush_dirty e f no_faults 0 None F_NOW false = Some (None, f2, o2, t2)
  /\ isdirty (f_d f2) i = true /\ f_q f2 = [] /\ lost e f f2 i.
Proof.
  exists ex_env, [Create 1 KInode 1024; Create 2 KMeta 8192; DirtyI 1; Clean 1; DirtyV 2 1],
    (ex_st [Create 1 KInode 1024; Create 2 KMeta 8192; DirtyI 1; Clean 1; DirtyV 2 1]).
  eexists. eexists. eexists. exists 2.
  split; [exact ex_env_ok|]. split.
  { split; [repeat constructor; cbn; lia|]. split; [vm_compute; reflexivity|]. split; [reflexivity|constructor]. }
  split; [vm_compute; reflexivity|]. split; [vm_compute; reflexivity|]. split; [vm_compute; reflexivity|].
  split; [reflexivity|].
  exists (mkW 2 ex_seg 8 [2; 2; 2; 2]), 0. split; [vm_compute; reflexivity|].
  split; [vm_compute; split; [discriminate|reflexivity]|]. vm_compute. discriminate.
Qed.

Print Assumptions C33_syncfs_writes.
Print Assumptions C33_syncfs_all_clean.
Print Assumptions C33_fsync_writes.
Print Assumptions C33_fsync_reply_first.
Print Assumptions C33_flush_defined.
Print Assumptions C34_collect_failure_partial.
Print Assumptions C34_write_failure_partial.
Print Assumptions C34_partial_flush_refuted.
Print Assumptions C34_write_error_refuted.
Print Assumptions C33_fsync_unreported_refuted.
Print Assumptions C33_fsync_inode_refuted.
Print Assumptions C33_syncfs_misses_refuted.
