(* Copy-on-write: the invariant on the tree of space maps, and what walking,
   loading, creating and copying map nodes do to it. *)
From Verif Require Import Base AddrModel CowModel.
Open Scope Z_scope.

(* ---- finite maps ---- *)

Global Arguments set {A} m k x : simpl never.
Global Arguments del {A} m k : simpl never.
Global Arguments uam_remove u k : simpl never.

Lemma keyb_true : forall a b, keyb a b = true <-> a = b.
Proof. intros. unfold keyb. destruct (list_eq_dec Z.eq_dec a b); split; congruence. Qed.
Lemma keyb_false : forall a b, keyb a b = false <-> a <> b.
Proof. intros. unfold keyb. destruct (list_eq_dec Z.eq_dec a b); split; congruence. Qed.
Lemma keyb_refl : forall a, keyb a a = true.
Proof. intros. apply keyb_true. reflexivity. Qed.
Lemma keyb_dec : forall a b, (keyb a b = true /\ a = b) \/ (keyb a b = false /\ a <> b).
Proof. intros. unfold keyb. destruct (list_eq_dec Z.eq_dec a b); auto. Qed.

Lemma get_filter : forall A (m : amap A) (q : key * A -> bool) k,
  (forall x, q (k, x) = true) -> get (filter q m) k = get m k.
Proof.
  intros A m q k Hq. induction m as [|[k' x] m IH]; auto.
  cbn [filter get]. destruct (keyb_dec k' k) as [[-> ->]|[E N]].
  - rewrite Hq. cbn [get]. rewrite keyb_refl. auto.
  - rewrite E. destruct (q (k', x)); cbn [get]; rewrite ?E; auto.
Qed.
Lemma get_del_other : forall A (m : amap A) k k', k <> k' -> get (del m k) k' = get m k'.
Proof.
  intros. unfold del. apply get_filter. intros. cbn. apply negb_true_iff, keyb_false. auto.
Qed.
Lemma get_del_same : forall A (m : amap A) k, get (del m k) k = None.
Proof.
  intros. unfold del. induction m as [|[k' x] m IH]; auto. cbn.
  destruct (keyb k' k) eqn:E; cbn; rewrite ?E; auto.
Qed.
Lemma get_set_same : forall A (m : amap A) k x, get (set m k x) k = Some x.
Proof. intros. unfold set. cbn [get]. rewrite keyb_refl. auto. Qed.
Lemma get_set_other : forall A (m : amap A) k k' x, k <> k' -> get (set m k x) k' = get m k'.
Proof.
  intros. unfold set. cbn [get]. replace (keyb k k') with false by (symmetry; apply keyb_false; auto).
  apply get_del_other. auto.
Qed.
Lemma get_set : forall A (m : amap A) k k' x, get (set m k x) k' = if keyb k k' then Some x else get m k'.
Proof.
  intros. destruct (keyb_dec k k') as [[-> ->]|[-> N]]; [apply get_set_same | apply get_set_other; auto].
Qed.
Lemma get_del : forall A (m : amap A) k k', get (del m k) k' = if keyb k k' then None else get m k'.
Proof.
  intros. destruct (keyb_dec k k') as [[-> ->]|[-> N]]; [apply get_del_same | apply get_del_other; auto].
Qed.
Lemma get_in : forall A (m : amap A) k x, get m k = Some x -> In (k, x) m.
Proof.
  induction m as [|[k' y] m IH]; intros k x H; [discriminate|]. cbn in H.
  destruct (keyb_dec k' k) as [[E ->]|[E N]]; rewrite E in H; [left; congruence | right; auto].
Qed.

(* ---- arithmetic of places ---- *)

Definition top : Z := 2 ^ 56.
Lemma span_pos : forall h, 0 < space_span h.
Proof.
  intros. unfold space_span, LBK_SIZE.
  repeat match goal with |- context [if ?c then _ else _] => destruct c end; reflexivity.
Qed.
Lemma base_idem : forall h off, base h (base h off) = base h off.
Proof. intros. unfold base. pose proof (span_pos h). rewrite Z.div_mul by lia. auto. Qed.
Lemma base_nested : forall a b q off, space_span b = space_span a * q -> 0 < q ->
  base b (base a off) = base b off.
Proof.
  intros a b q off E Q. unfold base. rewrite E. pose proof (span_pos a). f_equal.
  rewrite (Z.mul_comm (space_span a) q).
  rewrite Z.div_mul_cancel_r by lia.
  rewrite Z.mul_comm. rewrite <- Z.div_div by lia. reflexivity.
Qed.
Lemma height_cases : forall h, 2 <= h <= 6 -> h = 2 \/ h = 3 \/ h = 4 \/ h = 5 \/ h = 6.
Proof. lia. Qed.
Lemma base_up : forall h off, 2 <= h <= 5 -> base (h + 1) (base h off) = base (h + 1) off.
Proof.
  intros h off H. assert (h = 2 \/ h = 3 \/ h = 4 \/ h = 5) as [-> | [-> | [-> | ->]]] by lia;
  apply (base_nested _ _ 256); reflexivity.
Qed.
Lemma base_leaf_slot : forall off, base 2 (base 1 off) = base 2 off.
Proof. intros. apply (base_nested _ _ 256); reflexivity. Qed.
Lemma base_top : forall off, 0 <= off < top -> base 6 off = 0.
Proof.
  intros off H. unfold base. replace (space_span 6) with top by reflexivity.
  rewrite Z.div_small by auto. reflexivity.
Qed.
Lemma base_range : forall h off, 1 <= h <= 6 -> 0 <= off < top -> 0 <= base h off < top.
Proof.
  intros h off Hh H. unfold base. pose proof (span_pos h).
  assert (0 <= off / space_span h) by (apply Z.div_pos; lia).
  assert (space_span h * (off / space_span h) <= off) by (apply Z.mul_div_le; lia). nia.
Qed.

(* ---- the current tree ---- *)

(* One node of the tree as it should be: volume id, IV and content. *)
Record tn := mkTn { t_l : Z; t_r : Z; t_n : node }.
Definition tree := key -> option tn.
Definition tset (T : tree) (k : key) (x : tn) : tree := fun k' => if keyb k k' then Some x else T k'.
Lemma tset_same : forall T k x, tset T k x k = Some x.
Proof. intros. unfold tset. rewrite keyb_refl. auto. Qed.
Lemma tset_other : forall T k k' x, k <> k' -> tset T k x k' = T k'.
Proof. intros. unfold tset. rewrite (proj2 (keyb_false k k')); auto. Qed.

Definition wfk (k : key) : Prop :=
  exists vs h b, k = [vs; h; b] /\ 2 <= h <= 6 /\ b = base h b /\ 0 <= b < top.
Lemma wfk_of : forall vs h off, 2 <= h <= 6 -> 0 <= off < top -> wfk (ukey vs h off).
Proof.
  intros. exists vs, h, (base h off). repeat split; try lia.
  - symmetry; apply base_idem.
  - apply base_range; lia.
  - apply base_range; lia.
Qed.

(* The link to a node in its parent. *)
Definition lnk (T : tree) (b : super) (vs h p : Z) : option Z :=
  if h =? 6 then sb_kid b vs
  else match T [vs; h + 1; base (h + 1) p] with Some x => n_kid (t_n x) p | None => None end.
Definition lnr (T : tree) (b : super) (vs h p : Z) : Z :=
  if h =? 6 then sb_riv b vs
  else match T [vs; h + 1; base (h + 1) p] with Some x => n_riv (t_n x) p | None => 0 end.
Definition agree (o : option tn) (l : option Z) (r : Z) : Prop :=
  match o with Some x => l = Some (t_l x) /\ r = t_r x | None => l = None end.

Definition cellok (cu_ : amap cu) (su : amap (Z * node)) (k : key) (x : tn) : Prop :=
  match get cu_ (t_l x :: k) with
  | Some c => u_node c = t_n x /\ u_riv c = t_r x /\
              (u_dirty c = false -> get su (t_l x :: k) = Some (t_r x, t_n x))
  | None => get su (t_l x :: k) = Some (t_r x, t_n x)
  end.

(* A leaf binds every block to a volume. *)
Definition leafok (F : Z -> Prop) (b : super) (n : node) : Prop :=
  forall j, exists l, n_kid n j = Some l /\ (l = sb_lv b \/ F l).

(* The invariant on maps.  F: volume ids that no instance writes any more. *)
Record NI (F : Z -> Prop) (T : tree) (n : Z) (b : super) (cu_ : amap cu) (um : list (key * Z))
  (su : amap (Z * node)) : Prop := mkNI {
  ni_lvF : ~ F (sb_lv b);
  ni_lvn : sb_lv b < n;
  ni_Fn : forall l, F l -> l < n;
  ni_wf : forall k x, T k = Some x -> wfk k;
  ni_link : forall vs h p, wfk [vs; h; p] -> agree (T [vs; h; p]) (lnk T b vs h p) (lnr T b vs h p);
  ni_l : forall k x, T k = Some x -> t_l x = sb_lv b \/ F (t_l x);
  ni_leaf : forall vs p x, T [vs; 2; p] = Some x -> leafok F b (t_n x);
  ni_main : forall vs h p x, T [vs; h; p] = Some x -> t_l x = sb_lv b ->
            n_main (t_n x) = Some (sb_lv b) \/ (h <> 2 /\ n_main (t_n x) = None);
  ni_sbm : forall vs, sb_main b vs = None \/ sb_main b vs = Some (sb_lv b);
  ni_key : forall lk c, get cu_ lk = Some c -> exists l k, lk = l :: k /\ l < n /\
           (u_dirty c = true -> l = sb_lv b) /\
           (l = sb_lv b -> exists x, T k = Some x /\ t_l x = sb_lv b);
  ni_cell : forall k x, T k = Some x -> cellok cu_ su k x;
  ni_uam : forall k l, uam_find um k = Some l -> exists x, T k = Some x /\ t_l x = l }.

Definition NIs F T s := NI F T (nx s) (sb s) (cU s) (uam s) (sU s).

(* What map work never touches. *)
Record fr (s s' : st) : Prop := mkFr {
  fr_ev : ev s' = ev s; fr_nx : nx s <= nx s'; fr_sU : sU s' = sU s; fr_sV : sV s' = sV s;
  fr_sS : sS s' = sS s; fr_cV : cV s' = cV s; fr_lv : lv s' = lv s; fr_sid : sid s' = sid s;
  fr_boot : boot s' = boot s; fr_oB : oB s' = oB s;
  fr_cU : forall lk, get (cU s) lk <> None -> get (cU s') lk <> None }.
Lemma fr_refl : forall s, fr s s.
Proof. intros. constructor; auto; lia. Qed.
Lemma fr_trans : forall a b c, fr a b -> fr b c -> fr a c.
Proof.
  intros a b c [] []. constructor; try congruence; try lia. auto.
Qed.

(* ---- the view of the objects that a tree gives ---- *)

Definition vw (T : tree) (v : vad) : option (option Z * Z) :=
  match T (lkey v) with
  | Some x => if n_alloc (t_n x) (snd v) then Some (n_kid (t_n x) (slot v), n_riv (t_n x) (slot v)) else None
  | None => None
  end.

Lemma uam_find_refresh : forall u k l, uam_find (removelast u) k = Some l -> uam_find u k = Some l.
Proof.
  induction u as [|[k' l'] u IH]; intros k l H; [discriminate|].
  destruct u as [|q u]; [discriminate|].
  change (removelast ((k', l') :: q :: u)) with ((k', l') :: removelast (q :: u)) in H.
  change (uam_find ((k', l') :: q :: u) k) with (if keyb k' k then Some l' else uam_find (q :: u) k).
  change (uam_find ((k', l') :: removelast (q :: u)) k)
    with (if keyb k' k then Some l' else uam_find (removelast (q :: u)) k) in H.
  destruct (keyb k' k); auto.
Qed.
Lemma uam_find_refresh2 : forall u k l, uam_find (uam_refresh u) k = Some l -> uam_find u k = Some l.
Proof.
  unfold uam_refresh. intros u k l H. destruct (8191 <? 2 * zlen u); auto. apply uam_find_refresh; auto.
Qed.
Lemma uam_find_remove : forall u k k' l, uam_find (uam_remove u k) k' = Some l ->
  uam_find u k' = Some l /\ k <> k'.
Proof.
  unfold uam_remove. induction u as [|[k0 l0] u IH]; intros k k' l H; [discriminate|].
  cbn [filter fst] in H. destruct (keyb_dec k0 k) as [[E ->]|[E N]]; rewrite E in H; cbn [negb] in H.
  - destruct (IH _ _ _ H) as [A B]. split; auto. cbn [uam_find].
    rewrite (proj2 (keyb_false k k')); auto.
  - cbn [uam_find] in H |- *. destruct (keyb_dec k0 k') as [[E2 ->]|[E2 N2]]; rewrite E2 in *.
    + split; auto.
    + apply (IH _ _ _ H).
Qed.

(* ---- pieces of the invariant under small changes ---- *)

Lemma NI_uam : forall F T n b cu_ um um' su, NI F T n b cu_ um su ->
  (forall k l, uam_find um' k = Some l -> exists x, T k = Some x /\ t_l x = l) ->
  NI F T n b cu_ um' su.
Proof. intros F T n b cu_ um um' su [] H. constructor; auto. Qed.

Lemma NI_nx : forall F T n n' b cu_ um su, NI F T n b cu_ um su -> n <= n' -> NI F T n' b cu_ um su.
Proof.
  intros F T n n' b cu_ um su [] H. constructor; auto.
  - lia.
  - intros l HF. specialize (ni_Fn0 l HF). lia.
  - intros lk c Hg. destruct (ni_key0 _ _ Hg) as (l & k & E1 & E2 & E3 & E4). exists l, k. repeat split; auto. lia.
Qed.

Lemma NI_load : forall F T n b cu_ um su k x, NI F T n b cu_ um su ->
  T k = Some x -> get cu_ (t_l x :: k) = None ->
  NI F T n b (set cu_ (t_l x :: k) (mkCu (t_n x) (t_r x) false)) um su.
Proof.
  intros F T n b cu_ um su k x I Hk Hc. destruct I. constructor; auto.
  - intros lk c Hg. rewrite get_set in Hg. destruct (keyb_dec (t_l x :: k) lk) as [[E <-]|[E N]]; rewrite E in Hg.
    + injection Hg as <-. exists (t_l x), k. cbn. repeat split; auto.
      * destruct (ni_l0 _ _ Hk) as [->|HF]; auto. 
      * discriminate.
      * intros; eauto.
    + destruct (ni_key0 _ _ Hg) as (l & k' & E1 & E2 & E3 & E4). exists l, k'; auto.
  - intros k' y Hy. unfold cellok. rewrite get_set.
    destruct (keyb_dec (t_l x :: k) (t_l y :: k')) as [[E Q]|[E N]]; rewrite E.
    + injection Q as Q1 Q2. subst k'. assert (y = x) by congruence. subst y. cbn. repeat split; auto.
      intros _. specialize (ni_cell0 _ _ Hk). unfold cellok in ni_cell0. rewrite Hc in ni_cell0. auto.
    + apply ni_cell0; auto.
Qed.

Ltac inv_pair := match goal with H : (_, _) = (_, _) |- _ => injection H as ?; subst end.

Lemma stage_uni_ok : forall F T s k x r s',
  NIs F T s -> oB s = [] -> T k = Some x ->
  stage_uni (t_l x) k (t_r x) s = (r, s') ->
  NIs F T s' /\ fr s s' /\ sb s' = sb s /\ r <> Bad /\ (r = Ok tt -> get (cU s') (t_l x :: k) <> None).
Proof.
  intros F T s k x r s' I OB Hk H. unfold NIs in *.
  assert (TR : forall u, (forall k l, uam_find u k = Some l -> exists x, T k = Some x /\ t_l x = l) ->
    forall k0 l0, uam_find ((k, t_l x) :: uam_refresh u) k0 = Some l0 -> exists x, T k0 = Some x /\ t_l x = l0).
  { intros u Hu k0 l0 Hf. cbn [uam_find] in Hf. destruct (keyb_dec k k0) as [[E <-]|[E N]]; rewrite E in Hf.
    - injection Hf as <-. eauto.
    - apply Hu. apply uam_find_refresh2. auto. }
  unfold stage_uni, bind, gets in H.
  destruct (get (cU s) (t_l x :: k)) as [c|] eqn:Hc.
  - unfold track_hit, bind, gets in H. destruct (uam_find (uam s) k) eqn:Hu.
    + injection H as <- <-. split; [exact I|]. split; [apply fr_refl|]. repeat split; congruence.
    + unfold track, bind, flipB in H. rewrite OB in H. injection H as <- <-.
      split; [|split; [|split; [|split]]]; try congruence; auto.
      * eapply NI_uam; [exact I|]. apply TR. destruct I; auto.
      * constructor; cbn; auto; lia.
      * intros _. cbn. congruence.
  - unfold may_fail at 1 in H. destruct (oF s) as [|bf rf] eqn:OF; [|destruct bf].
    2: { injection H as <- <-. split; [exact I|]. split; [constructor; cbn; auto; lia|]. repeat split; congruence. }
    all: unfold track, bind, flipB in H; cbn [oB with_oF] in H; rewrite OB in H;
      unfold mod_st in H; cbn [with_uam with_oF sU uam oF] in H;
      assert (Hs : get (sU s) (t_l x :: k) = Some (t_r x, t_n x)) by
        (pose proof (ni_cell _ _ _ _ _ _ _ I _ _ Hk) as C; unfold cellok in C; rewrite Hc in C; exact C);
      rewrite Hs, Z.eqb_refl in H; unfold may_fail in H; cbn [with_uam with_oF oF] in H;
      rewrite ?OF in H.
    + injection H as <- <-. split; [|split; [|split; [|split]]]; try congruence; auto.
      * cbn. eapply NI_uam; [apply NI_load; eauto|]. apply TR. destruct I; auto.
      * constructor; cbn; auto; try lia. intros lk Hl. rewrite get_set. destruct keyb; congruence.
      * intros _. cbn. rewrite get_set_same. congruence.
    + destruct rf as [|bf2 rf]; [|destruct bf2].
      * injection H as <- <-. split; [|split; [|split; [|split]]]; try congruence; auto.
        -- cbn. eapply NI_uam; [apply NI_load; eauto|]. apply TR. destruct I; auto.
        -- constructor; cbn; auto; try lia. intros lk Hl. rewrite get_set. destruct keyb; congruence.
        -- intros _. cbn. rewrite get_set_same. congruence.
      * injection H as <- <-. split; [|split; [|split; [|split]]]; try congruence; auto.
        -- cbn. eapply NI_uam; [exact I|]. intros k0 l0 Hf. apply uam_find_remove in Hf as [Hf N].
           revert Hf. apply TR. destruct I; auto.
        -- constructor; cbn; auto; lia.
      * injection H as <- <-. split; [|split; [|split; [|split]]]; try congruence; auto.
        -- cbn. eapply NI_uam; [apply NI_load; eauto|]. apply TR. destruct I; auto.
        -- constructor; cbn; auto; try lia. intros lk Hl. rewrite get_set. destruct keyb; congruence.
        -- intros _. cbn. rewrite get_set_same. congruence.
Qed.

(* Changing a node of one's own in place. *)
Lemma NI_upd : forall F T n b cu_ um su vs h p x c n',
  NI F T n b cu_ um su -> T [vs; h; p] = Some x -> t_l x = sb_lv b ->
  get cu_ (t_l x :: [vs; h; p]) = Some c ->
  (h <> 2 -> n_kid n' = n_kid (t_n x) /\ n_riv n' = n_riv (t_n x)) ->
  (h = 2 -> leafok F b n') ->
  (n_main n' = Some (sb_lv b) \/ (h <> 2 /\ n_main n' = None)) ->
  NI F (tset T [vs; h; p] (mkTn (t_l x) (t_r x) n')) n b
     (set cu_ (t_l x :: [vs; h; p]) (mkCu n' (u_riv c) true)) um su.
Proof.
  intros F T n b cu_ um su vs h p x c n' I Hk Hl Hc Hk1 Hk2 Hm. destruct I.
  assert (Hcell := ni_cell0 _ _ Hk). unfold cellok in Hcell. rewrite Hc in Hcell.
  destruct Hcell as (C1 & C2 & C3).
  assert (Hh : 2 <= h <= 6).
  { destruct (ni_wf0 _ _ Hk) as (a1 & a2 & a3 & E & B & _). injection E as <- <- <-. auto. }
  constructor; auto.
  - intros k y Hy. unfold tset in Hy. destruct (keyb_dec [vs; h; p] k) as [[E <-]|[E N]]; rewrite E in Hy; eauto.
  - intros vs' h' p' W. specialize (ni_link0 _ _ _ W).
    assert (L : lnk (tset T [vs; h; p] (mkTn (t_l x) (t_r x) n')) b vs' h' p' = lnk T b vs' h' p' /\
                lnr (tset T [vs; h; p] (mkTn (t_l x) (t_r x) n')) b vs' h' p' = lnr T b vs' h' p').
    { unfold lnk, lnr. destruct (h' =? 6) eqn:H6; auto.
      destruct (keyb_dec [vs; h; p] [vs'; h' + 1; base (h' + 1) p']) as [[E Q]|[E N]].
      - assert (h <> 2).
        { injection Q as Q1 Q2 Q3. destruct W as (a1 & a2 & a3 & EE & B & _). injection EE as <- <- <-. lia. }
        destruct (Hk1 H) as [Ha Hb].
        rewrite <- Q, tset_same, Hk. cbn. rewrite Ha, Hb. auto.
      - rewrite tset_other by auto. auto. }
    destruct L as [-> ->].
    destruct (keyb_dec [vs; h; p] [vs'; h'; p']) as [[E Q]|[E N]].
    + rewrite <- Q, tset_same. rewrite <- Q, Hk in ni_link0. cbn in *. auto.
    + rewrite tset_other by auto. auto.
  - intros k y Hy. unfold tset in Hy. destruct (keyb_dec [vs; h; p] k) as [[E <-]|[E N]]; rewrite E in Hy; eauto.
    injection Hy as <-. cbn. auto.
  - intros vs' p' y Hy. destruct (keyb_dec [vs; h; p] [vs'; 2; p']) as [[E Q]|[E N]].
    + rewrite <- Q, tset_same in Hy. injection Hy as <-. injection Q as Q1 Q2 Q3. cbn [t_n]. eauto.
    + rewrite tset_other in Hy by auto. eauto.
  - intros vs' h' p' y Hy Hl'. destruct (keyb_dec [vs; h; p] [vs'; h'; p']) as [[E Q]|[E N]].
    + rewrite <- Q, tset_same in Hy. injection Hy as <-. injection Q as Q1 Q2 Q3. subst. cbn. auto.
    + rewrite tset_other in Hy by auto. eauto.
  - intros lk c0 Hg. rewrite get_set in Hg.
    destruct (keyb_dec (t_l x :: [vs; h; p]) lk) as [[E <-]|[E N]]; rewrite E in Hg.
    + injection Hg as <-. exists (t_l x), [vs; h; p]. repeat split; auto.
      * rewrite Hl; auto.
      * intros _. rewrite tset_same. eexists; split; [reflexivity|]. auto.
    + destruct (ni_key0 _ _ Hg) as (l & k & E1 & E2 & E3 & E4). exists l, k. repeat split; auto.
      intros HH. destruct (E4 HH) as (y & Y1 & Y2).
      destruct (keyb_dec [vs; h; p] k) as [[Ek <-]|[Ek Nk]].
      * rewrite tset_same. eexists; split; [reflexivity|]. auto.
      * rewrite tset_other by auto. eauto.
  - intros k y Hy. unfold cellok. destruct (keyb_dec [vs; h; p] k) as [[Ek <-]|[Ek Nk]].
    + rewrite tset_same in Hy. injection Hy as <-. cbn [t_l]. rewrite get_set_same. cbn. repeat split; auto. discriminate.
    + rewrite tset_other in Hy by auto. rewrite get_set_other by congruence. apply ni_cell0; auto.
  - intros k l Hf. destruct (ni_uam0 _ _ Hf) as (y & Y1 & Y2).
    destruct (keyb_dec [vs; h; p] k) as [[Ek <-]|[Ek Nk]].
    + rewrite tset_same. eexists; split; [reflexivity|]. cbn. congruence.
    + rewrite tset_other by auto. eauto.
Qed.

(* A new node of one's own, hung into the super block or into a node of one's own. *)
Section Bind.
  Variables (F : Z -> Prop) (T : tree) (n : Z) (b : super) (cu_ : amap cu) (um : list (key * Z))
            (su : amap (Z * node)).
  Variables (vs h p r : Z) (n' : node).
  Hypothesis I : NI F T n b cu_ um su.
  Hypothesis W : wfk [vs; h; p].
  Hypothesis R : r = lnr T b vs h p.
  Hypothesis Hlv : forall x, T [vs; h; p] = Some x -> t_l x <> sb_lv b.
  Hypothesis Hkids : h <> 2 -> forall pc, wfk [vs; h - 1; pc] -> base h pc = p ->
    agree (T [vs; h - 1; pc]) (n_kid n' pc) (n_riv n' pc).
  Hypothesis Hleaf : h = 2 -> leafok F b n'.
  Hypothesis Hmain : n_main n' = Some (sb_lv b) \/ (h <> 2 /\ n_main n' = None).

  Let k := [vs; h; p].
  Let x' := mkTn (sb_lv b) r n'.

  Lemma wfk_h : forall a c d, wfk [a; c; d] -> 2 <= c <= 6 /\ d = base c d /\ 0 <= d < top.
  Proof. intros a c d (a1 & a2 & a3 & E & H). injection E as <- <- <-. auto. Qed.

  (* the parent is the super block *)
  Lemma NI_bind_sb : forall cu' um',
    h = 6 ->
    (forall lk, get cu' lk = if keyb (sb_lv b :: k) lk then Some (mkCu n' r true) else get cu_ lk) ->
    (forall k0 l0, uam_find um' k0 = Some l0 -> k0 = k /\ l0 = sb_lv b \/ (k0 <> k /\ uam_find um k0 = Some l0)) ->
    NI F (tset T k x') n
       (mkSuper (sb_lv b) (sb_main b) (fsetZ (sb_kid b) vs (Some (sb_lv b))) (fsetZ (sb_riv b) vs r))
       cu' um' su.
  Proof.
    intros cu' um' H6 Hcu Hum. destruct I.
    assert (P0 : p = 0).
    { destruct (wfk_h _ _ _ W) as (_ & E & B). rewrite E, H6. apply base_top. auto. }
    constructor; cbn [sb_lv sb_main]; auto.
    - intros k0 y Hy. unfold tset in Hy. destruct (keyb_dec k k0) as [[E <-]|[E N]]; rewrite E in Hy; eauto.
    - intros vs1 h1 p1 W1. pose proof (ni_link0 _ _ _ W1) as L.
      destruct (wfk_h _ _ _ W1) as (B1 & B2 & B3).
      destruct (keyb_dec k [vs1; h1; p1]) as [[E Q]|[E N]].
      + rewrite <- Q, tset_same. unfold k in Q. injection Q as <- <- <-.
        unfold lnk, lnr. rewrite H6. cbn. unfold fsetZ. rewrite Z.eqb_refl. auto.
      + rewrite tset_other by auto. unfold lnk, lnr in *. destruct (h1 =? 6) eqn:E6.
        * cbn. unfold fsetZ. destruct (vs1 =? vs) eqn:Ev; auto.
          exfalso. apply N. unfold k. assert (p1 = 0).
          { rewrite B2. replace h1 with 6 by lia. apply base_top. auto. }
          assert (h1 = 6) by lia. assert (vs1 = vs) by lia. congruence.
        * destruct (keyb_dec k [vs1; h1 + 1; base (h1 + 1) p1]) as [[E2 Q2]|[E2 N2]].
          -- rewrite <- Q2, tset_same. unfold k in Q2. injection Q2 as <- Q3 Q4. cbn [t_n x'].
             replace h1 with (h - 1) in * by lia. apply Hkids; auto; try lia.
             replace (h - 1 + 1) with h in Q4 by lia. auto.
          -- rewrite tset_other by auto. auto.
    - intros k0 y Hy. unfold tset in Hy. destruct (keyb_dec k k0) as [[E <-]|[E N]]; rewrite E in Hy; eauto.
      injection Hy as <-. cbn. auto.
    - intros vs1 p1 y Hy. destruct (keyb_dec k [vs1; 2; p1]) as [[E Q]|[E N]].
      + unfold k in Q. injection Q as <- Q3 Q4. lia.
      + rewrite tset_other in Hy by auto. eauto.
    - intros vs1 h1 p1 y Hy Hl. destruct (keyb_dec k [vs1; h1; p1]) as [[E Q]|[E N]].
      + rewrite <- Q, tset_same in Hy. injection Hy as <-. unfold k in Q. injection Q as <- <- <-. auto.
      + rewrite tset_other in Hy by auto. eauto.
    - intros lk c Hg. rewrite Hcu in Hg. destruct (keyb_dec (sb_lv b :: k) lk) as [[E <-]|[E N]]; rewrite E in Hg.
      + exists (sb_lv b), k. repeat split; auto. intros _. rewrite tset_same. eexists; split; [reflexivity|]. auto.
      + destruct (ni_key0 _ _ Hg) as (l & k0 & E1 & E2 & E3 & E4). exists l, k0. repeat split; auto.
        intros HH. destruct (E4 HH) as (y & Y1 & Y2).
        rewrite tset_other; eauto. intros <-. apply (Hlv _ Y1 Y2).
    - intros k0 y Hy. unfold cellok. destruct (keyb_dec k k0) as [[E <-]|[E N]].
      + rewrite tset_same in Hy. injection Hy as <-. cbn [t_l]. rewrite Hcu. unfold x'. cbn [t_l]. rewrite keyb_refl.
        cbn. repeat split; auto. discriminate.
      + rewrite tset_other in Hy by auto. rewrite Hcu. rewrite (proj2 (keyb_false (sb_lv b :: k) (t_l y :: k0))) by congruence.
        apply ni_cell0; auto.
    - intros k0 l0 Hf. destruct (Hum _ _ Hf) as [[-> ->]|[N Hf']].
      + rewrite tset_same. eexists; split; [reflexivity|]. auto.
      + rewrite tset_other by auto. eauto.
  Qed.

  (* the parent is a node *)
  Lemma NI_bind_node : forall cu' um' xp cp,
    h <> 6 -> let kp := [vs; h + 1; base (h + 1) p] in
    T kp = Some xp -> t_l xp = sb_lv b -> get cu_ (sb_lv b :: kp) = Some cp ->
    let np := mkNode (n_main (t_n xp)) (fsetZ (n_kid (t_n xp)) p (Some (sb_lv b)))
                (fsetZ (n_riv (t_n xp)) p r) (n_alloc (t_n xp)) in
    (forall lk, get cu' lk = if keyb (sb_lv b :: k) lk then Some (mkCu n' r true)
                             else if keyb (sb_lv b :: kp) lk then Some (mkCu np (u_riv cp) true) else get cu_ lk) ->
    (forall k0 l0, uam_find um' k0 = Some l0 -> k0 = k /\ l0 = sb_lv b \/ (k0 <> k /\ uam_find um k0 = Some l0)) ->
    NI F (tset (tset T kp (mkTn (sb_lv b) (t_r xp) np)) k x') n b cu' um' su.
  Proof.
    intros cu' um' xp cp H6 kp Hp Hlp Hcp np Hcu Hum. destruct I.
    assert (Nk : kp <> k) by (unfold kp, k; intros E; injection E; lia).
    assert (Wp := wfk_h _ _ _ W). destruct Wp as (B0 & B1 & B2).
    set (xp' := mkTn (sb_lv b) (t_r xp) np) in *.
    assert (TT : forall k0, tset (tset T kp xp') k x' k0 = if keyb k k0 then Some x' else if keyb kp k0 then Some xp' else T k0)
      by reflexivity.
    assert (Hc := ni_cell0 _ _ Hp). unfold cellok in Hc. rewrite Hlp, Hcp in Hc. destruct Hc as (C1 & C2 & C3).
    constructor; auto.
    - intros k0 y Hy. rewrite TT in Hy. destruct (keyb_dec k k0) as [[E <-]|[E N]]; rewrite E in Hy; auto.
      destruct (keyb_dec kp k0) as [[E2 <-]|[E2 N2]]; rewrite E2 in Hy; eauto.
    - intros vs1 h1 p1 W1. pose proof (ni_link0 _ _ _ W1) as L.
      destruct (wfk_h _ _ _ W1) as (D1 & D2 & D3).
      assert (LK : [vs1; h1; p1] <> k -> agree (T [vs1; h1; p1])
                (lnk (tset (tset T kp xp') k x') b vs1 h1 p1) (lnr (tset (tset T kp xp') k x') b vs1 h1 p1)).
      { intros N. unfold lnk, lnr in *. destruct (h1 =? 6) eqn:E6; auto. rewrite TT.
        destruct (keyb_dec k [vs1; h1 + 1; base (h1 + 1) p1]) as [[E2 Q2]|[E2 N2]]; rewrite E2.
        - unfold k in Q2. injection Q2 as <- Q3 Q4. cbn [t_n x'].
          replace h1 with (h - 1) in * by lia. apply Hkids; auto; try lia.
          replace (h - 1 + 1) with h in Q4 by lia. auto.
        - destruct (keyb_dec kp [vs1; h1 + 1; base (h1 + 1) p1]) as [[E3 Q3]|[E3 N3]]; rewrite E3.
          + rewrite <- Q3, Hp in L. cbn [t_n xp' np n_kid n_riv]. unfold fsetZ.
            destruct (p1 =? p) eqn:Ep; auto. exfalso. apply N. unfold kp in Q3. injection Q3 as <- Q5 Q6.
            unfold k. assert (h1 = h) by lia. assert (p1 = p) by lia. congruence.
          + auto. }
      rewrite TT. destruct (keyb_dec k [vs1; h1; p1]) as [[E Q]|[E N]]; rewrite E.
      + unfold k in Q. injection Q as <- <- <-. unfold lnk, lnr.
        replace (h =? 6) with false by (symmetry; apply Z.eqb_neq; auto). rewrite !TT. fold kp.
        rewrite (proj2 (keyb_false k kp)) by auto. rewrite keyb_refl. cbn. unfold fsetZ. rewrite Z.eqb_refl. auto.
      + destruct (keyb_dec kp [vs1; h1; p1]) as [[E2 Q2]|[E2 N2]]; rewrite E2.
        * rewrite <- Q2, Hp in LK. specialize (LK ltac:(auto)). cbn in LK |- *. rewrite <- Hlp. auto.
        * auto.
    - intros k0 y Hy. rewrite TT in Hy. destruct (keyb_dec k k0) as [[E <-]|[E N]]; rewrite E in Hy.
      + injection Hy as <-. auto.
      + destruct (keyb_dec kp k0) as [[E2 <-]|[E2 N2]]; rewrite E2 in Hy; eauto. injection Hy as <-. auto.
    - intros vs1 p1 y Hy. rewrite TT in Hy. destruct (keyb_dec k [vs1; 2; p1]) as [[E Q]|[E N]]; rewrite E in Hy.
      + injection Hy as <-. unfold k in Q. injection Q as Q1 Q2 Q3. eauto.
      + destruct (keyb_dec kp [vs1; 2; p1]) as [[E2 Q2]|[E2 N2]]; rewrite E2 in Hy; eauto.
        unfold kp in Q2. injection Q2 as Q1 Q2 Q3. lia.
    - intros vs1 h1 p1 y Hy Hl. rewrite TT in Hy. destruct (keyb_dec k [vs1; h1; p1]) as [[E Q]|[E N]]; rewrite E in Hy.
      + injection Hy as <-. unfold k in Q. injection Q as <- <- <-. auto.
      + destruct (keyb_dec kp [vs1; h1; p1]) as [[E2 Q2]|[E2 N2]]; rewrite E2 in Hy; eauto.
        injection Hy as <-. cbn. rewrite Q2 in Hp. eauto.
    - intros lk c Hg. rewrite Hcu in Hg. destruct (keyb_dec (sb_lv b :: k) lk) as [[E <-]|[E N]]; rewrite E in Hg.
      + exists (sb_lv b), k. repeat split; auto. intros _. rewrite tset_same. eexists; split; [reflexivity|]. auto.
      + destruct (keyb_dec (sb_lv b :: kp) lk) as [[E' <-]|[E' N']]; rewrite E' in Hg.
        * exists (sb_lv b), kp. repeat split; auto. intros _. rewrite TT.
          rewrite (proj2 (keyb_false k kp)) by auto. rewrite keyb_refl. eexists; split; [reflexivity|]. auto.
        * destruct (ni_key0 _ _ Hg) as (l & k0 & E1 & E2 & E3 & E4). exists l, k0. repeat split; auto.
          intros HH. destruct (E4 HH) as (y & Y1 & Y2). rewrite TT.
          destruct (keyb_dec k k0) as [[E5 <-]|[E5 N5]]; rewrite E5. { exfalso. apply (Hlv _ Y1 Y2). }
          destruct (keyb_dec kp k0) as [[E6 <-]|[E6 N6]]; rewrite E6; eauto.
    - intros k0 y Hy. unfold cellok. rewrite TT in Hy. rewrite Hcu.
      destruct (keyb_dec k k0) as [[E <-]|[E N]]; rewrite E in Hy.
      + injection Hy as <-. unfold x'. cbn [t_l]. rewrite keyb_refl. cbn. repeat split; auto. discriminate.
      + rewrite (proj2 (keyb_false (sb_lv b :: k) (t_l y :: k0))) by congruence.
        destruct (keyb_dec kp k0) as [[E2 <-]|[E2 N2]]; rewrite E2 in Hy.
        * injection Hy as <-. unfold xp'. cbn [t_l]. rewrite keyb_refl. cbn. repeat split; auto. discriminate.
        * rewrite (proj2 (keyb_false (sb_lv b :: kp) (t_l y :: k0))) by congruence. apply ni_cell0; auto.
    - intros k0 l0 Hf. rewrite TT. destruct (Hum _ _ Hf) as [[-> ->]|[N Hf']].
      + rewrite keyb_refl. eexists; split; [reflexivity|]. auto.
      + rewrite (proj2 (keyb_false k k0)) by auto. destruct (ni_uam0 _ _ Hf') as (y & Y1 & Y2).
        destruct (keyb_dec kp k0) as [[E6 <-]|[E6 N6]]; rewrite E6; eauto.
        eexists; split; [reflexivity|]. cbn. congruence.
  Qed.
End Bind.
