(* Copy-on-write: walking from the super block to a leaf, copying what is not
   one's own on the way. *)
From Verif Require Import Base AddrModel CowModel CowProofs.
Open Scope Z_scope.

Global Arguments upd_node l k f : simpl never.
Global Arguments uam_refresh u : simpl never.

Lemma upd_node_run : forall l k f s c, get (cU s) (l :: k) = Some c ->
  upd_node l k f s = (Ok tt, set_cu l k (mkCu (f (u_node c)) (u_riv c) true) s).
Proof. intros. unfold upd_node, mod_st. rewrite H. auto. Qed.

Lemma may_fail_cases : forall s, exists f, may_fail s = (Ok tt, with_oF f s) \/ may_fail s = (Er, with_oF f s).
Proof.
  intros s. unfold may_fail. destruct (oF s) as [|[] r] eqn:E.
  - exists []. left. f_equal. destruct s; cbn in *; subst; auto.
  - exists r. auto.
  - exists r. auto.
Qed.

Lemma with_oF_id : forall s, with_oF (oF s) s = s.
Proof. destruct s; reflexivity. Qed.

Lemma fr_oF : forall s f, fr s (with_oF f s).
Proof. intros. constructor; cbn; auto; lia. Qed.

(* ---- the parent ---- *)

Definition parok (T : tree) (s : st) (m : mode) (p : par) (vs h b : Z) : Prop :=
  if h =? 6 then p = None
  else exists l xp, p = Some (l, [vs; h + 1; base (h + 1) b]) /\ T [vs; h + 1; base (h + 1) b] = Some xp /\
       t_l xp = l /\ get (cU s) (l :: [vs; h + 1; base (h + 1) b]) <> None /\ (m = COW -> l = lv s).

Lemma parok_vals : forall F T s m p vs h b, NIs F T s -> parok T s m p vs h b ->
  p_kid s p vs b = lnk T (sb s) vs h b /\ p_riv s p vs b = lnr T (sb s) vs h b.
Proof.
  intros F T s m p vs h b I P. unfold parok in P. unfold lnk, lnr. destruct (h =? 6).
  - subst. auto.
  - destruct P as (l & xp & -> & Hp & Hl & Hc & _). cbn [p_kid p_riv]. rewrite Hp.
    destruct (get (cU s) (l :: [vs; h + 1; base (h + 1) b])) as [c|] eqn:E; [|congruence].
    pose proof (ni_cell _ _ _ _ _ _ _ I _ _ Hp) as C. unfold cellok in C. rewrite Hl, E in C.
    destruct C as (-> & _). auto.
Qed.

Definition sameW (T T' : tree) : Prop := forall v, vw T' v = vw T v.
Lemma sameW_refl : forall T, sameW T T. Proof. intros T v; auto. Qed.
Lemma sameW_trans : forall a b c, sameW a b -> sameW b c -> sameW a c.
Proof. intros a b c H1 H2 v. rewrite H2; auto. Qed.

Lemma lkey_h : forall v, exists o, lkey v = [fst v; 2; o].
Proof. intros. eexists. reflexivity. Qed.

Lemma vw_tset_node : forall T vs h p x, h <> 2 -> sameW T (tset T [vs; h; p] x).
Proof.
  intros T vs h p x H v. unfold vw. rewrite tset_other; auto.
  destruct (lkey_h v) as [o ->]. congruence.
Qed.

Lemma require_main_ok : forall F T s p vs h b r s',
  NIs F T s -> wfk [vs; h; b] -> parok T s COW p vs h b -> require_main p vs s = (r, s') ->
  exists T', NIs F T' s' /\ fr s s' /\ sameW T T' /\ parok T' s' COW p vs h b /\
    (forall vs' h' p', h' <= h -> T' [vs'; h'; p'] = T [vs'; h'; p']) /\ r <> Bad /\ (forall l, r = Ok l -> l = lv s).
Proof.
  intros F T s p vs h b r s' I W P H. unfold require_main, bind, gets in H.
  destruct (may_fail_cases s) as [f [E|E]]; rewrite E in H.
  2: { injection H as <- <-. exists T. split; [exact I|]. split; [apply fr_oF|]. split; [apply sameW_refl|].
       split; [exact P|]. repeat split; congruence. }
  unfold parok in P.
  assert (W2 := wfk_h _ _ _ W). destruct (h =? 6) eqn:H6.
  - subst p. cbn [p_main] in H. destruct (ni_sbm _ _ _ _ _ _ _ I vs) as [Em|Em]; rewrite Em in H.
    + cbn [p_set_main] in H. unfold mod_st in H. cbn in H. injection H as <- <-.
      exists T. split; [|split; [|split; [apply sameW_refl|]]].
      * unfold NIs in *. cbn. destruct I. constructor; auto. cbn. intros v. unfold fsetZ. destruct (v =? vs); auto.
      * constructor; cbn; auto; lia.
      * split. { unfold parok. rewrite H6. auto. } split; [auto|]. split; [congruence|].
        intros l0 Q. injection Q as <-. reflexivity.
    + injection H as <- <-. exists T. split; [exact I|]. split; [apply fr_oF|]. split; [apply sameW_refl|].
      split. { unfold parok. rewrite H6. auto. } split; [auto|]. split; [congruence|].
      intros l0 Q. injection Q as <-. reflexivity.
  - destruct P as (l & xp & -> & Hp & Hl & Hc & Hlv). specialize (Hlv eq_refl).
    destruct (get (cU s) (l :: [vs; h + 1; base (h + 1) b])) as [c|] eqn:Ec; [|congruence].
    pose proof (ni_cell _ _ _ _ _ _ _ I _ _ Hp) as C. unfold cellok in C. rewrite Hl, Ec in C.
    destruct C as (C1 & C2 & _).
    cbn [p_main] in H. rewrite Ec, C1 in H.
    assert (Hl2 : t_l xp = sb_lv (sb s)) by (rewrite Hl; exact Hlv).
    destruct (ni_main _ _ _ _ _ _ _ I _ _ _ _ Hp Hl2) as [Em|[Nh Em]]; rewrite Em in H.
    + injection H as <- <-. exists T. split; [exact I|]. split; [apply fr_oF|]. split; [apply sameW_refl|].
      split. { unfold parok. rewrite H6. exists l, xp. repeat split; auto. intros. cbn. congruence. }
      repeat split; try congruence.
      all: intros; unfold lv; congruence.
    + unfold lv at 1 in H. cbn [p_set_main sb with_oF] in H.
      rewrite (upd_node_run _ _ _ _ c) in H by exact Ec. injection H as <- <-.
      rewrite <- Hl in Ec.
      exists (tset T [vs; h + 1; base (h + 1) b]
          (mkTn (t_l xp) (t_r xp) (mkNode (Some (sb_lv (sb s))) (n_kid (u_node c)) (n_riv (u_node c)) (n_alloc (u_node c))))).
      split; [|split; [|split; [|split]]].
      * unfold NIs, set_cu. cbn [nx sb cU uam sU with_cU with_oF]. rewrite <- Hl.
        apply NI_upd; auto.
        -- intros _. rewrite C1. auto.
        -- lia.
      * constructor; cbn; auto; try lia. intros lk Hl'. rewrite get_set. destruct keyb; congruence.
      * apply vw_tset_node. auto.
      * unfold parok. rewrite H6. eexists _, _. rewrite tset_same. split; [reflexivity|]. split; [reflexivity|].
        cbn [t_l]. split; [auto|]. unfold set_cu. cbn [cU with_cU]. rewrite get_set_same. split; [congruence|]. auto.
      * split. { intros vs' h' p' Hh. apply tset_other. intros Q. injection Q. lia. }
        split; [congruence|]. intros l0 Q. injection Q as <-. reflexivity.
Qed.

(* ---- creating ---- *)

Lemma spawn_uni_ok : forall l k r s R s',
  get (cU s) (l :: k) = None -> oB s = [] -> spawn_uni l k r s = (R, s') ->
  (R = Er /\ exists f u, s' = with_oF f (with_uam u s) /\ (forall k0 l0, uam_find u k0 = Some l0 -> uam_find (uam s) k0 = Some l0)) \/
  (R = Ok tt /\ exists f, s' = with_uam ((k, l) :: uam_refresh (uam s)) (with_cU (set (cU s) (l :: k) (mkCu blank_node r true)) (with_oF f s))).
Proof.
  intros l k r s R s' Hc OB H. unfold spawn_uni, bind, gets in H. rewrite Hc in H.
  destruct (may_fail_cases s) as [f [E|E]]; rewrite E in H.
  2: { injection H as <- <-. left. split; auto. exists f, (uam s). split; auto. }
  unfold track, bind, flipB in H. cbn [oB with_oF] in H. rewrite OB in H. unfold mod_st in H.
  cbn [uam with_oF] in H.
  match goal with H : match may_fail ?x with _ => _ end = _ |- _ => destruct (may_fail_cases x) as [f2 [E2|E2]]; rewrite E2 in H end.
  - injection H as <- <-. right. split; auto. exists f2. destruct s; auto.
  - unfold forget_uni, mod_st in H. injection H as <- <-. left. split; auto.
    exists f2, (uam_remove ((k, l) :: uam_refresh (uam s)) k). split; [destruct s; reflexivity|]. intros k0 l0 Hf. apply uam_find_remove in Hf as [Hf N].
    cbn [uam_find] in Hf. rewrite (proj2 (keyb_false k k0)) in Hf by auto. apply uam_find_refresh2; auto.
Qed.

Definition new_leaf_kid (h l : Z) : Z -> option Z := if h =? 2 then fun _ => Some l else fun _ => None.
Definition new_main (h l : Z) : option Z := if h =? 2 then Some l else None.

(* What spawn_at leaves when it succeeds: a fresh node at k, not linked yet. *)
Lemma spawn_at_ok : forall F T s p vs h b r s',
  NIs F T s -> oB s = [] -> wfk [vs; h; b] -> parok T s COW p vs h b ->
  (forall x, T [vs; h; b] = Some x -> t_l x <> lv s) ->
  spawn_at p vs h b s = (r, s') ->
  exists T1 s1, NIs F T1 s1 /\ fr s s1 /\ sameW T T1 /\ parok T1 s1 COW p vs h b /\
    (forall vs' h' p', h' <= h -> T1 [vs'; h'; p'] = T [vs'; h'; p']) /\
    ((r = Er /\ s' = s1) \/
     (exists rv, r = Ok (lv s) /\
        ev s' = ev s1 /\ nx s' = nx s1 + 1 /\ sU s' = sU s1 /\ sV s' = sV s1 /\ sS s' = sS s1 /\ cV s' = cV s1 /\
        sb s' = sb s1 /\ sid s' = sid s1 /\ boot s' = boot s1 /\ oB s' = oB s1 /\
        uam s' = ([vs; h; b], lv s) :: uam_refresh (uam s1) /\
        forall lk, get (cU s') lk = if keyb (lv s :: [vs; h; b]) lk
          then Some (mkCu (mkNode (new_main h (lv s)) (new_leaf_kid h (lv s)) rv (fun _ => false)) (lnr T1 (sb s1) vs h b) true)
          else get (cU s1) lk)).
Proof.
  intros F T s p vs h b r s' I OB W P Hn H. unfold spawn_at in H. cbv zeta in H. unfold bind at 1 in H.
  destruct (require_main p vs s) as [rm sm] eqn:Em.
  destruct (require_main_ok _ _ _ _ _ _ _ _ _ I W P Em) as (T1 & I1 & F1 & S1 & P1 & Q1 & NB & RL).
  assert (OB1 : oB sm = []) by (destruct F1; congruence).
  assert (LV : lv sm = lv s) by (destruct F1; auto).
  destruct rm as [l| |]; [|injection H as <- <-; exists T1, sm; auto 10|congruence].
  rewrite (RL l eq_refl) in H. clear RL.
  assert (Hn1 : get (cU sm) (lv s :: [vs; h; b]) = None).
  { destruct (get (cU sm) (lv s :: [vs; h; b])) eqn:E; auto. exfalso.
    destruct (ni_key _ _ _ _ _ _ _ I1 _ _ E) as (l' & k' & E1 & _ & _ & E4). injection E1 as <- <-.
    destruct (E4 (eq_sym LV)) as (x & Hx & Hl).
    rewrite Q1 in Hx by lia. apply (Hn _ Hx). rewrite <- LV. exact Hl. }
  unfold bind at 1, gets at 1 in H.
  destruct (parok_vals _ _ _ _ _ _ _ _ I1 P1) as [_ PR]. rewrite PR in H.
  unfold bind at 1 in H.
  destruct (spawn_uni (lv s) [vs; h; b] (lnr T1 (sb sm) vs h b) sm) as [ru su] eqn:Eu.
  destruct (spawn_uni_ok _ _ _ _ _ _ Hn1 OB1 Eu) as [[-> (f & u & -> & Hu)]|[-> (f & ->)]].
  - injection H as <- <-. exists T1, (with_oF f (with_uam u sm)). split; [|split; [|split; [|split; [|split]]]]; auto.
    + unfold NIs in *. cbn. eapply NI_uam; [exact I1|]. intros k l' Hf. apply (ni_uam _ _ _ _ _ _ _ I1). auto.
    + eapply fr_trans; [exact F1|]. constructor; cbn; auto; lia.
  - exists T1, (with_oF f sm). split; [exact I1|]. split; [eapply fr_trans; [exact F1|apply fr_oF]|].
    split; [auto|]. split; [exact P1|]. split; [auto|]. right.
    unfold setup_spawned, bind at 1 2 3 4, gets, mod_st in H. cbn [nx ev with_uam with_cU with_oF] in H.
    set (sx := with_nx (nx sm + 1) (with_uam (([vs; h; b], lv s) :: uam_refresh (uam sm))
          (with_cU (set (cU sm) (lv s :: [vs; h; b]) (mkCu blank_node (lnr T1 (sb sm) vs h b) true)) (with_oF f sm)))) in H.
    assert (Hx : get (cU sx) (lv s :: [vs; h; b]) = Some (mkCu blank_node (lnr T1 (sb sm) vs h b) true))
      by (unfold sx; cbn; apply get_set_same).
    unfold bind at 1 in H. rewrite (upd_node_run _ _ _ _ _ Hx) in H. cbn [u_node u_riv] in H.
    set (N0 := mkNode None (fun _ => None) (e_rnd (ev sm) (nx sm)) (fun _ => false)) in H.
    set (sy := set_cu (lv s) [vs; h; b] (mkCu N0 (lnr T1 (sb sm) vs h b) true) sx) in H.
    assert (Hy : get (cU sy) (lv s :: [vs; h; b]) = Some (mkCu N0 (lnr T1 (sb sm) vs h b) true))
      by (unfold sy, set_cu; cbn; apply get_set_same).
    exists (e_rnd (ev sm) (nx sm)). unfold new_main, new_leaf_kid.
    change H_SPLEAF with 2 in H. destruct (h =? 2) eqn:E2.
    + unfold require_leaf_main, bind, gets in H. cbn [p_main] in H. rewrite Hy in H. cbn [u_node n_main N0] in H.
      unfold flipB in H. replace (oB sy) with (oB sm) in H by reflexivity. rewrite OB1 in H.
      rewrite (upd_node_run _ _ _ _ _ Hy) in H. cbn [u_node u_riv n_riv n_alloc N0] in H. injection H as <- <-.
      replace (lv sy) with (lv s) by (rewrite <- LV; reflexivity).
      repeat (split; [reflexivity|]). intros lk. unfold set_cu. cbn [cU with_cU sy sx set_cu with_nx with_uam with_oF].
      unfold sy, set_cu. cbn [cU with_cU]. unfold sx. cbn [cU with_cU with_nx with_uam with_oF]. rewrite !get_set.
      destruct (keyb (lv s :: [vs; h; b]) lk); auto.
    + unfold ret in H. unfold bind in H. injection H as <- <-.
      repeat (split; [reflexivity|]). intros lk. unfold sy, set_cu. cbn [cU with_cU]. unfold sx. cbn [cU with_cU with_nx with_uam with_oF].
      rewrite !get_set. destruct (keyb (lv s :: [vs; h; b]) lk); auto.
Qed.

(* Linking a fresh node into its parent. *)
Lemma bind_at_ok : forall F T s1 s2 p vs h b n',
  NIs F T s1 -> wfk [vs; h; b] -> parok T s1 COW p vs h b ->
  (forall x, T [vs; h; b] = Some x -> t_l x <> lv s1) ->
  (h <> 2 -> forall pc, wfk [vs; h - 1; pc] -> base h pc = b ->
    agree (T [vs; h - 1; pc]) (n_kid n' pc) (n_riv n' pc)) ->
  (h = 2 -> leafok F (sb s1) n') ->
  (n_main n' = Some (lv s1) \/ (h <> 2 /\ n_main n' = None)) ->
  nx s1 <= nx s2 -> sU s2 = sU s1 -> sV s2 = sV s1 -> sS s2 = sS s1 -> cV s2 = cV s1 -> ev s2 = ev s1 ->
  sb s2 = sb s1 -> sid s2 = sid s1 -> boot s2 = boot s1 -> oB s2 = oB s1 ->
  uam s2 = ([vs; h; b], lv s1) :: uam_refresh (uam s1) ->
  (forall lk, get (cU s2) lk = if keyb (lv s1 :: [vs; h; b]) lk then Some (mkCu n' (lnr T (sb s1) vs h b) true)
                               else get (cU s1) lk) ->
  exists s' T', bind_at p vs h b (lv s1) s2 = (Ok tt, s') /\ NIs F T' s' /\ fr s1 s' /\
    T' [vs; h; b] = Some (mkTn (lv s1) (lnr T (sb s1) vs h b) n') /\
    get (cU s') (lv s1 :: [vs; h; b]) <> None /\
    (forall v, lkey v <> [vs; h; b] -> vw T' v = vw T v).
Proof.
  intros F T s1 s2 p vs h b n' I W P Hn Hkids Hleaf Hmain N1 E1 E2 E3 E4 E5 E6 E7 E8 E9 Eu Ecu.
  set (r := lnr T (sb s1) vs h b) in *.
  assert (Hum : forall k0 l0, uam_find (uam s2) k0 = Some l0 ->
     k0 = [vs; h; b] /\ l0 = sb_lv (sb s1) \/ (k0 <> [vs; h; b] /\ uam_find (uam s1) k0 = Some l0)).
  { intros k0 l0 Hf. rewrite Eu in Hf. cbn [uam_find] in Hf.
    destruct (keyb_dec [vs; h; b] k0) as [[E <-]|[E N]]; rewrite E in Hf.
    - left. split; auto. unfold lv in *. congruence.
    - right. split; auto. apply uam_find_refresh2. auto. }
  assert (I0 : NI F T (nx s2) (sb s1) (cU s1) (uam s1) (sU s1)) by (eapply NI_nx; [exact I|auto]).
  unfold bind_at, bind, gets. rewrite Ecu, keyb_refl. cbn [u_riv]. fold r.
  unfold parok in P. destruct (h =? 6) eqn:H6.
  - subst p. cbn [p_bind]. unfold mod_st. eexists _, _. split; [reflexivity|]. split; [|split; [|split; [|split]]].
    + unfold NIs. cbn [nx sb cU uam sU with_sbd with_sb]. rewrite E6, E1. 
      eapply NI_bind_sb with (r := r) (n' := n'); eauto; lia.
    + constructor; cbn; try congruence; try lia.
      * unfold lv in *. cbn. congruence.
      * intros lk Hl. rewrite Ecu. destruct keyb; congruence.
    + apply tset_same.
    + cbn. rewrite Ecu, keyb_refl. congruence.
    + intros v Hv. unfold vw. rewrite tset_other by auto. auto.
  - destruct P as (l & xp & -> & Hp & Hl & Hc & Hlv). specialize (Hlv eq_refl).
    destruct (get (cU s1) (l :: [vs; h + 1; base (h + 1) b])) as [cp|] eqn:Ec; [|congruence].
    pose proof (ni_cell _ _ _ _ _ _ _ I _ _ Hp) as C. unfold cellok in C. rewrite Hl, Ec in C.
    destruct C as (C1 & C2 & _).
    assert (Nk : [vs; h + 1; base (h + 1) b] <> [vs; h; b]) by (intros Q; injection Q; lia).
    assert (Ec2 : get (cU s2) (l :: [vs; h + 1; base (h + 1) b]) = Some cp).
    { rewrite Ecu. rewrite (proj2 (keyb_false _ _)); auto. congruence. }
    cbn [p_bind]. rewrite (upd_node_run _ _ _ _ _ Ec2).
    eexists _, _. split; [reflexivity|]. split; [|split; [|split; [|split]]].
    + unfold NIs, set_cu. cbn [nx sb cU uam sU with_cU]. rewrite E6, E1.
      eapply NI_bind_node with (r := r) (n' := n') (xp := xp) (cp := cp); eauto.
      * lia.
      * rewrite Hl. exact Hlv.
      * rewrite <- Ec. rewrite Hlv. reflexivity.
      * intros lk. rewrite get_set, Ecu. rewrite C1. rewrite Hlv. fold (lv s1).
        destruct (keyb_dec (lv s1 :: [vs; h; b]) lk) as [[Q Q2]|[Q N]]; rewrite Q.
        -- rewrite (proj2 (keyb_false (lv s1 :: [vs; h + 1; base (h + 1) b]) lk)); auto. congruence.
        -- destruct (keyb (lv s1 :: [vs; h + 1; base (h + 1) b]) lk); auto.
    + constructor; cbn; try congruence; try lia.
      * unfold lv in *. cbn. congruence.
      * intros lk Hl'. rewrite get_set, Ecu. destruct keyb; [congruence|]. destruct keyb; congruence.
    + rewrite tset_same. reflexivity.
    + cbn. rewrite get_set, Ecu. destruct keyb; [congruence|]. rewrite keyb_refl. congruence.
    + intros v Hv. unfold vw. rewrite !tset_other; auto.
      destruct (lkey_h v) as [o ->]. pose proof (wfk_h _ _ _ W). intros Q. injection Q. lia.
Qed.

(* ---- one level ---- *)

Definition node_at (T : tree) (s : st) (m : mode) (k : key) (l : Z) : Prop :=
  exists x, T k = Some x /\ t_l x = l /\ get (cU s) (l :: k) <> None /\ (m = COW -> l = lv s).

(* The outcome of map work: still the same objects. *)
Definition walked (F : Z -> Prop) (T : tree) (s : st) (m : mode) (T' : tree) (s' : st) : Prop :=
  NIs F T' s' /\ fr s s' /\ sameW T T' /\ (m = CUR -> T' = T).
Lemma walked_refl : forall F T s m, NIs F T s -> walked F T s m T s.
Proof. intros. split; [auto|]. split; [apply fr_refl|]. split; [apply sameW_refl|auto]. Qed.
Lemma walked_trans : forall F m T s T1 s1 T2 s2,
  walked F T s m T1 s1 -> walked F T1 s1 m T2 s2 -> walked F T s m T2 s2.
Proof.
  intros F m T s T1 s1 T2 s2 (A & B & C & D) (E & G & H & J).
  split; [auto|]. split; [eapply fr_trans; eauto|]. split; [eapply sameW_trans; eauto|].
  intros Q. rewrite J, D; auto.
Qed.

Lemma clone_at_ok : forall F T s p vs h b x r s',
  NIs F T s -> oB s = [] -> wfk [vs; h; b] -> parok T s COW p vs h b ->
  T [vs; h; b] = Some x -> t_l x <> lv s -> get (cU s) (t_l x :: [vs; h; b]) <> None ->
  clone_at p vs h b (t_l x) s = (r, s') ->
  exists T', walked F T s COW T' s' /\ r <> Bad /\ (forall l, r = Ok l -> node_at T' s' COW [vs; h; b] l).
Proof.
  intros F T s p vs h b x r s' I OB W P Hx Hl Hc H. unfold clone_at in H. cbv zeta in H. unfold bind at 1 in H.
  destruct (spawn_at p vs h b s) as [rs s2] eqn:E.
  destruct (spawn_at_ok _ _ _ _ _ _ _ _ _ I OB W P ltac:(intros y Hy; assert (y = x) by congruence; subst; auto) E)
    as (T1 & s1 & I1 & F1 & S1 & P1 & Q1 & [[-> ->]|(rv & -> & D)]).
  { injection H as <- <-. exists T1. split; [|split; congruence]. split; [auto|]. split; [auto|]. split; [auto|]. discriminate. }
  destruct D as (D1 & D2 & D3 & D4 & D5 & D6 & D7 & D8 & D9 & D10 & D11 & D12).
  assert (LV : lv s1 = lv s) by (destruct F1; auto).
  assert (Hx1 : T1 [vs; h; b] = Some x) by (rewrite Q1 by lia; auto).
  destruct (get (cU s1) (t_l x :: [vs; h; b])) as [c|] eqn:Ec.
  2: { exfalso. apply (fr_cU _ _ F1) in Hc. congruence. }
  pose proof (ni_cell _ _ _ _ _ _ _ I1 _ _ Hx1) as C. unfold cellok in C. rewrite Ec in C. destruct C as (C1 & C2 & _).
  unfold bind at 1, gets at 1 in H. rewrite D12 in H.
  rewrite (proj2 (keyb_false _ _)) in H by congruence. rewrite Ec in H. unfold bind at 1 in H.
  assert (G2 := D12 (lv s :: [vs; h; b])). rewrite keyb_refl in G2.
  rewrite (upd_node_run _ _ _ _ _ G2) in H. cbn [u_node u_riv n_main] in H. rewrite C1 in H.
  set (n' := mkNode (new_main h (lv s)) (n_kid (t_n x)) (n_riv (t_n x)) (n_alloc (t_n x))) in H.
  set (s3 := set_cu (lv s) [vs; h; b] (mkCu n' (lnr T1 (sb s1) vs h b) true) s2) in H.
  assert (Wh := wfk_h _ _ _ W).
  destruct (bind_at_ok F T1 s1 s3 p vs h b n' I1 W P1) as (s4 & T2 & B1 & B2 & B3 & B4 & B5 & B6); auto.
  - intros y Hy. assert (y = x) by congruence. subst. congruence.
  - intros Hh pc Wc Hb. pose proof (ni_link _ _ _ _ _ _ _ I1 _ _ _ Wc) as L. unfold lnk, lnr in L.
    replace (h - 1 =? 6) with false in L by lia. replace (h - 1 + 1) with h in L by lia.
    rewrite Hb, Hx1 in L. exact L.
  - intros ->. exact (ni_leaf _ _ _ _ _ _ _ I1 _ _ _ Hx1).
  - unfold n', new_main. cbn. destruct (h =? 2) eqn:E2; [left; congruence|right]. split; [lia|auto].
  - unfold s3, set_cu. cbn. lia.
  - rewrite LV. exact D11.
  - intros lk. unfold s3, set_cu. cbn [cU with_cU]. rewrite get_set, D12, LV.
    destruct (keyb (lv s :: [vs; h; b]) lk); auto.
  - unfold bind at 1 in H. rewrite LV in B1. rewrite B1 in H. injection H as <- <-.
    exists T2. split; [|split; [congruence|]].
    + split; [auto|]. split; [eapply fr_trans; eauto|]. split; [|discriminate].
      eapply sameW_trans; [exact S1|]. intros v.
      destruct (keyb_dec (lkey v) [vs; h; b]) as [[_ Q]|[_ Q]]; [|auto].
      unfold vw. rewrite Q, B4, Hx1. reflexivity.
    + intros l Q. injection Q as <-. eexists. split; [exact B4|]. cbn. rewrite LV in *. split; [auto|]. split; [auto|].
      intros _. destruct B3. congruence.
Qed.

Lemma fcached_at : forall F T s k l m, NIs F T s -> fcached s k = Some l -> acc m l s = true -> node_at T s m k l.
Proof.
  intros F T s k l m I H A. unfold fcached in H. destruct (uam_find (uam s) k) as [l'|] eqn:E; [|discriminate].
  destruct (get (cU s) (l' :: k)) eqn:G; [|discriminate]. injection H as ->.
  destruct (ni_uam _ _ _ _ _ _ _ I _ _ E) as (x & Hx & Hl). exists x. repeat split; auto; [congruence|].
  intros ->. unfold acc in A. cbn in A. lia.
Qed.

Lemma stage_level_ok : forall F T s m p vs h b r s',
  NIs F T s -> oB s = [] -> wfk [vs; h; b] -> parok T s m p vs h b ->
  stage_level m p vs h b s = (r, s') ->
  exists T', walked F T s m T' s' /\ r <> Bad /\ (forall l, r = Ok l -> node_at T' s' m [vs; h; b] l).
Proof.
  intros F T s m p vs h b r s' I OB W P H. unfold stage_level in H. cbv zeta in H.
  unfold bind at 1, gets at 1 in H.
  assert (DIR : forall R S, (kd <- gets (fun s => p_kid s p vs b);;
     match kd with
     | Some l => r <- gets (fun s => p_riv s p vs b);; stage_uni l [vs; h; b] r;;;
           (if acc m l s then ret l else clone_at p vs h b l)
     | None => err
     end) s = (R, S) ->
     exists T', walked F T s m T' S /\ R <> Bad /\ (forall l, R = Ok l -> node_at T' S m [vs; h; b] l)).
  { intros R S D. unfold bind at 1, gets at 1 in D.
    destruct (parok_vals _ _ _ _ _ _ _ _ I P) as [PK PR]. rewrite PK in D.
    pose proof (ni_link _ _ _ _ _ _ _ I _ _ _ W) as L.
    destruct (T [vs; h; b]) as [x|] eqn:Tk; cbn in L.
    2: { rewrite L in D. injection D as <- <-. exists T. split; [apply walked_refl; auto|]. split; congruence. }
    destruct L as [L1 L2]. rewrite L1 in D. unfold bind at 1, gets at 1 in D. rewrite PR, L2 in D. unfold bind at 1 in D.
    destruct (stage_uni (t_l x) [vs; h; b] (t_r x) s) as [ru su] eqn:Eu.
    destruct (stage_uni_ok _ _ _ _ _ _ _ I OB Tk Eu) as (I1 & F1 & SB & NB & C).
    assert (WK : walked F T s m T su) by (split; [auto|]; split; [auto|]; split; [apply sameW_refl|auto]).
    destruct ru as [[]| |].
    - specialize (C eq_refl). destruct (acc m (t_l x) s) eqn:A.
      + injection D as <- <-. exists T. split; [auto|]. split; [congruence|]. intros l Q. injection Q as <-.
        exists x. repeat split; auto. intros ->. unfold acc in A. cbn in A. destruct F1. lia.
      + destruct m; [discriminate|].
        assert (LV : lv su = lv s) by (destruct F1; auto).
        destruct (clone_at_ok F T su p vs h b x R S I1) as (T2 & W2 & N2 & O2); auto.
        * destruct F1; congruence.
        * unfold parok in *. destruct (h =? 6); auto. destruct P as (l & xp & Q1 & Q2 & Q3 & Q4 & Q5).
          exists l, xp. repeat split; auto. { apply (fr_cU _ _ F1); auto. } intros Q. rewrite LV. auto.
        * unfold acc in A. cbn in A. rewrite LV. lia.
        * exists T2. split; [eapply walked_trans; eauto|]. auto.
    - injection D as <- <-. exists T. split; [auto|]. split; congruence.
    - congruence. }
  destruct (fcached s [vs; h; b]) as [l|] eqn:Ef; [destruct (acc m l s) eqn:A|]; auto.
  injection H as <- <-. exists T. split; [apply walked_refl; auto|]. split; [congruence|].
  intros l0 Q. injection Q as <-. eapply fcached_at; eauto.
Qed.

Lemma require_level_ok : forall F T s p vs h b r s',
  NIs F T s -> oB s = [] -> wfk [vs; h; b] -> parok T s COW p vs h b ->
  require_level p vs h b s = (r, s') ->
  exists T', walked F T s COW T' s' /\ r <> Bad /\ (forall l, r = Ok l -> node_at T' s' COW [vs; h; b] l).
Proof.
  intros F T s p vs h b r s' I OB W P H. unfold require_level, bind at 1, gets at 1 in H.
  destruct (parok_vals _ _ _ _ _ _ _ _ I P) as [PK PR]. rewrite PK in H.
  pose proof (ni_link _ _ _ _ _ _ _ I _ _ _ W) as L.
  destruct (T [vs; h; b]) as [x|] eqn:Tk; cbn in L.
  { destruct L as [L1 L2]. rewrite L1 in H. eapply stage_level_ok; eauto. }
  rewrite L in H. unfold bind at 1, gets at 1 in H. cbv zeta in H.
  assert (Ef : fcached s [vs; h; b] = None).
  { unfold fcached. destruct (uam_find (uam s) [vs; h; b]) eqn:E; auto.
    destruct (ni_uam _ _ _ _ _ _ _ I _ _ E) as (y & Hy & _). congruence. }
  rewrite Ef in H. unfold bind at 1 in H.
  destruct (spawn_at p vs h b s) as [rs s2] eqn:E.
  destruct (spawn_at_ok _ _ _ _ _ _ _ _ _ I OB W P ltac:(intros y Hy; congruence) E)
    as (T1 & s1 & I1 & F1 & S1 & P1 & Q1 & [[-> ->]|(rv & -> & D)]).
  { injection H as <- <-. exists T1. split; [|split; congruence]. split; [auto|]. split; [auto|]. split; [auto|]. discriminate. }
  destruct D as (D1 & D2 & D3 & D4 & D5 & D6 & D7 & D8 & D9 & D10 & D11 & D12).
  assert (LV : lv s1 = lv s) by (destruct F1; auto).
  assert (Hx1 : T1 [vs; h; b] = None) by (rewrite Q1 by lia; auto).
  assert (Wh := wfk_h _ _ _ W).
  set (n' := mkNode (new_main h (lv s)) (new_leaf_kid h (lv s)) rv (fun _ => false)) in *.
  destruct (bind_at_ok F T1 s1 s2 p vs h b n' I1 W P1) as (s4 & T2 & B1 & B2 & B3 & B4 & B5 & B6); auto.
  - intros y Hy. congruence.
  - intros Hh pc Wc Hb. pose proof (ni_link _ _ _ _ _ _ _ I1 _ _ _ Wc) as L'. unfold lnk, lnr in L'.
    replace (h - 1 =? 6) with false in L' by lia. replace (h - 1 + 1) with h in L' by lia.
    rewrite Hb, Hx1 in L'. destruct (T1 [vs; h - 1; pc]); cbn in L'; [destruct L'; discriminate|].
    unfold n', new_leaf_kid. replace (h =? 2) with false by lia. reflexivity.
  - intros -> j. exists (lv s). split; [reflexivity|]. left. rewrite <- LV. reflexivity.
  - unfold n', new_main. cbn. destruct (h =? 2) eqn:E2; [left; congruence|right]. split; [lia|auto].
  - lia.
  - rewrite LV. exact D11.
  - intros lk. rewrite D12, LV. auto.
  - unfold bind at 1 in H. rewrite LV in B1. rewrite B1 in H. injection H as <- <-.
    exists T2. split; [|split; [congruence|]].
    + split; [auto|]. split; [eapply fr_trans; eauto|]. split; [|discriminate].
      eapply sameW_trans; [exact S1|]. intros v.
      destruct (keyb_dec (lkey v) [vs; h; b]) as [[_ Q]|[_ Q]]; [|auto].
      unfold vw. rewrite Q, B4, Hx1. reflexivity.
    + intros l Q. injection Q as <-. eexists. split; [exact B4|]. cbn. rewrite LV in *. split; [auto|]. split; [auto|].
      intros _. destruct B3. congruence.
Qed.

(* ---- all levels ---- *)

Fixpoint chain (h : Z) (hs : list Z) : Prop :=
  match hs with [] => h = 1 | h' :: r => h' = h /\ 2 <= h <= 6 /\ chain (h - 1) r end.

Lemma base_up1 : forall h off, 1 <= h <= 5 -> base (h + 1) (base h off) = base (h + 1) off.
Proof.
  intros. assert (h = 1 \/ 2 <= h <= 5) as [-> | D] by lia; [apply base_leaf_slot | apply base_up; auto].
Qed.

Lemma walk_ok : forall F m vs off lvl, 0 <= off < top ->
  (forall T s p h r s', 2 <= h <= 6 -> NIs F T s -> oB s = [] -> parok T s m p vs h (base h off) ->
     lvl p h (base h off) s = (r, s') ->
     exists T', walked F T s m T' s' /\ r <> Bad /\ (forall l, r = Ok l -> node_at T' s' m [vs; h; base h off] l)) ->
  forall hs h T s p r s', chain h hs -> NIs F T s -> oB s = [] -> parok T s m p vs h (base h off) ->
  walk lvl hs p vs off s = (r, s') ->
  exists T', walked F T s m T' s' /\ r <> Bad /\ (forall p', r = Ok p' -> parok T' s' m p' vs 1 (base 1 off)).
Proof.
  intros F m vs off lvl Ho LV. induction hs as [|h' hs IH]; intros h T s p r s' C I OB P H; cbn [chain] in C.
  - injection H as <- <-. subst. exists T. split; [apply walked_refl; auto|]. split; [congruence|].
    intros p' Q. injection Q as <-. auto.
  - destruct C as (-> & Hh & C). cbn [walk] in H. unfold bind in H.
    destruct (lvl p h (base h off) s) as [rl sl] eqn:E.
    destruct (LV _ _ _ _ _ _ Hh I OB P E) as (T1 & W1 & N1 & O1).
    destruct rl as [l| |]; [|injection H as <- <-; exists T1; split; [auto|]; split; congruence|congruence].
    destruct (O1 l eq_refl) as (x & X1 & X2 & X3 & X4).
    assert (W1' := W1). destruct W1' as (I1 & F1 & _ & _).
    assert (P1 : parok T1 sl m (Some (l, ukey vs h off)) vs (h - 1) (base (h - 1) off)).
    { unfold parok. replace (h - 1 =? 6) with false by lia.
      rewrite base_up1 by lia. replace (h - 1 + 1) with h by lia. exists l, x. repeat split; auto. }
    assert (OB1 : oB sl = []) by (destruct F1; congruence).
    destruct (IH (h - 1) T1 sl _ _ _ C I1 OB1 P1 H) as (T2 & W2 & N2 & O2).
    exists T2. split; [eapply walked_trans; eauto|]. auto.
Qed.

Lemma leaf_of_ok : forall F T s m v p r s',
  NIs F T s -> parok T s m p (fst v) 1 (base 1 (snd v)) -> leaf_of p s = (r, s') ->
  s' = s /\ r <> Bad /\ (forall l, r = Ok l -> node_at T s m (lkey v) l).
Proof.
  intros F T s m v p r s' I P H. unfold parok in P. change (1 =? 6) with false in P. cbv iota in P.
  rewrite base_up1 in P by lia. destruct P as (l & x & -> & A & B & C & D). cbn in H. injection H as <- <-.
  split; [auto|]. split; [congruence|]. intros l0 Q. injection Q as <-. exists x. auto.
Qed.

Lemma chain_levels : chain 6 levels.
Proof. unfold levels, H_SPNODE4, H_SPNODE3, H_SPNODE2, H_SPNODE1, H_SPLEAF. cbn. lia. Qed.

Lemma stage_spmaps_ok : forall F T s m v r s', NIs F T s -> oB s = [] -> 0 <= snd v < top ->
  stage_spmaps m v s = (r, s') ->
  exists T', walked F T s m T' s' /\ r <> Bad /\ (forall l, r = Ok l -> node_at T' s' m (lkey v) l).
Proof.
  intros F T s m v r s' I OB Ho H. unfold stage_spmaps, bind in H.
  destruct (walk _ levels None (fst v) (snd v) s) as [rw sw] eqn:E.
  destruct (walk_ok F m (fst v) (snd v) (fun p h b => stage_level m p (fst v) h b) Ho
    ltac:(intros; eapply stage_level_ok; eauto; apply wfk_of; auto)
    levels 6 T s None rw sw chain_levels I OB ltac:(reflexivity) E) as (T1 & W1 & N1 & O1).
  exists T1. destruct rw as [p| |]; [|injection H as <- <-; split; [auto|]; split; congruence|congruence].
  destruct W1 as (I1 & R1).
  destruct (leaf_of_ok _ _ _ _ _ _ _ _ I1 (O1 p eq_refl) H) as (-> & A & B). split; [split; auto|]. auto.
Qed.

Lemma require_spmaps_ok : forall F T s v r s', NIs F T s -> oB s = [] -> 0 <= snd v < top ->
  require_spmaps v s = (r, s') ->
  exists T', walked F T s COW T' s' /\ r <> Bad /\ (forall l, r = Ok l -> node_at T' s' COW (lkey v) l).
Proof.
  intros F T s v r s' I OB Ho H. unfold require_spmaps, bind in H.
  destruct (walk _ levels None (fst v) (snd v) s) as [rw sw] eqn:E.
  destruct (walk_ok F COW (fst v) (snd v) (fun p h b => require_level p (fst v) h b) Ho
    ltac:(intros; eapply require_level_ok; eauto; apply wfk_of; auto)
    levels 6 T s None rw sw chain_levels I OB ltac:(reflexivity) E) as (T1 & W1 & N1 & O1).
  exists T1. destruct rw as [p| |]; [|injection H as <- <-; split; [auto|]; split; congruence|congruence].
  destruct W1 as (I1 & R1).
  destruct (leaf_of_ok _ _ _ _ _ _ _ _ I1 (O1 p eq_refl) H) as (-> & A & B). split; [split; auto|]. auto.
Qed.

Lemma resolve_leaf_ok : forall F T s m v r s', NIs F T s -> oB s = [] -> 0 <= snd v < top ->
  resolve_leaf m v s = (r, s') ->
  exists T', walked F T s m T' s' /\ r <> Bad /\ (forall l, r = Ok l -> node_at T' s' m (lkey v) l).
Proof.
  intros F T s m v r s' I OB Ho H. unfold resolve_leaf, bind at 1, gets at 1 in H.
  destruct (fcached s (lkey v)) as [l|] eqn:Ef; [destruct (acc m l s) eqn:A|]; try solve [eapply stage_spmaps_ok; eauto].
  injection H as <- <-. exists T. split; [apply walked_refl; auto|]. split; [congruence|].
  intros l0 Q. injection Q as <-. eapply fcached_at; eauto.
Qed.
