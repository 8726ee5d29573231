(* C07: extended attributes behave as a map; C08: replaced values survive eviction. *)
From Verif Require Import Base XattrModel XattrProofs.

(* ---------- specification ---------- *)

Definition xmap := bytes -> option bytes.
Definition empty_map : xmap := fun _ => None.
Definition put (m : xmap) (n : bytes) (v : option bytes) : xmap :=
  fun n' => if list_eq_dec Z.eq_dec n n' then v else m n'.

Inductive xop :=
| OSet (acl : bool) (name value : bytes) (fl : xflag) (orc : list bool)
| ORemove (acl : bool) (name : bytes)
| OFlush
| OEvict (slot : nat).

(* Which names a caller may write: at most 255 bytes, not in a disabled name space, and
   the security/system/trusted name spaces only when ACLs are enabled. *)
Definition begins (p s : bytes) : Prop := exists r, s = p ++ r /\ r <> [].
Definition legal_write (acl : bool) (name : bytes) : Prop :=
  zlen name <= 255 /\ ~ begins pfx_gnu name /\
  (acl = false -> ~ begins pfx_security name /\ ~ begins pfx_system name /\ ~ begins pfx_trusted name).
Definition is_acl_name (n : bytes) : Prop := n = acl_access \/ n = acl_default.

(* The allowed transitions: operation, error code, map before, map after. *)
Inductive sstep : xmap -> xop -> xerr -> xmap -> Prop :=
| s_illegal : forall m acl n v fl orc e,
    ~ legal_write acl n \/ 2048 < zlen v -> e = XInval \/ (e = XNameTooLong /\ 255 < zlen n) ->
    sstep m (OSet acl n v fl orc) e m
| s_exist : forall m acl n v orc old, legal_write acl n -> zlen v <= 2048 -> m n = Some old ->
    sstep m (OSet acl n v XFCreate orc) XExist m
| s_nodata : forall m acl n v orc, legal_write acl n -> zlen v <= 2048 -> m n = None ->
    sstep m (OSet acl n v XFReplace orc) XNoData m
| s_set : forall m acl n v fl orc, legal_write acl n -> zlen v <= 2048 ->
    (fl = XFCreate -> m n = None) -> (fl = XFReplace -> m n <> None) ->
    sstep m (OSet acl n v fl orc) XOk (put m n (Some v))
| s_nospc : forall m acl n v fl orc, legal_write acl n -> zlen v <= 2048 ->
    (fl = XFCreate -> m n = None) -> (fl = XFReplace -> m n <> None) ->
    sstep m (OSet acl n v fl orc) XNoSpc m
| s_rillegal : forall m acl n e, ~ legal_write acl n -> e = XInval \/ (e = XNameTooLong /\ 255 < zlen n) ->
    sstep m (ORemove acl n) e m
| s_remove : forall m acl n old, legal_write acl n -> m n = Some old ->
    sstep m (ORemove acl n) XOk (put m n None)
| s_rnone : forall m acl n, legal_write acl n -> m n = None -> ~ is_acl_name n ->
    sstep m (ORemove acl n) XNoData m
| s_racl : forall m acl n, legal_write acl n -> m n = None -> is_acl_name n ->
    sstep m (ORemove acl n) XOk m
| s_flush : forall m, sstep m OFlush XOk m
| s_evict : forall m i, sstep m (OEvict i) XOk m.

Inductive sruns : xmap -> list (xop * xerr) -> xmap -> Prop :=
| sr_nil : forall m, sruns m [] m
| sr_cons : forall m o e m1 h m2, sstep m o e m1 -> sruns m1 h m2 -> sruns m ((o, e) :: h) m2.

(* the model *)
Definition xstep (st : xstate) (o : xop) : xerr * xstate :=
  match o with
  | OSet acl n v fl orc => do_setxattr acl st n v fl orc
  | ORemove acl n => do_removexattr acl st n
  | OFlush => (XOk, do_flush st)
  | OEvict i => (XOk, do_evict st i)
  end.
Fixpoint xrun (st : xstate) (os : list xop) : list (xop * xerr) * xstate :=
  match os with
  | [] => ([], st)
  | o :: r => let (e, st1) := xstep st o in let (h, st2) := xrun st1 r in ((o, e) :: h, st2)
  end.

Definition is_evict (o : xop) : bool := match o with OEvict _ => true | _ => false end.

(* What callers see of a state that stands for map m. *)
Definition observes (st : xstate) (m : xmap) : Prop :=
  (forall acl n, zlen n <= 255 ->
     (m n = None -> forall cap, do_getxattr acl st n cap = (XNoData, 0, [])) /\
     (forall v, m n = Some v ->
        do_getxattr acl st n 0 = (XOk, zlen v, []) /\
        forall cap, 0 < cap ->
          do_getxattr acl st n cap = if cap <? zlen v then (XRange, zlen v, []) else (XOk, zlen v, v))) /\
  NoDup (do_listxattr st) /\ (forall n, In n (do_listxattr st) <-> m n <> None).

(* ---------- proof ---------- *)

Definition Inv (st : xstate) (m : xmap) : Prop :=
  length st = XA_NSLOTS /\
  exists ess, st_rep st ess /\ NoDup (map fst (concat ess)) /\ (forall n, m n = aget (concat ess) n).

Lemma has_prefix_begins : forall n p, has_prefix n p = true <-> begins p n.
Proof.
  intros n p. unfold has_prefix. rewrite andb_true_iff, bytes_eqb_eq. split.
  - intros [H1 H2]. exists (zdrop (zlen p) n). rewrite <- H2 at 1. rewrite ztake_zdrop. split; [reflexivity|].
    intros E. pose proof (zlen_nonneg _ p). pose proof (zlen_zdrop _ (zlen p) n ltac:(lia)) as L.
    rewrite E in L. cbn in L. lia.
  - intros (r & -> & Hr). rewrite zlen_app. split.
    + destruct r; [congruence|]. rewrite zlen_cons. pose proof (zlen_nonneg _ r). lia.
    + rewrite ztake_app_l by lia. apply ztake_all. lia.
Qed.

Lemma check_op_spec : forall acl n size,
  (check_op acl true n size = XOk /\ legal_write acl n /\ size <= 2048) \/
  ((~ legal_write acl n \/ 2048 < size) /\
   (check_op acl true n size = XInval \/ (check_op acl true n size = XNameTooLong /\ 255 < zlen n))).
Proof.
  intros acl n size. unfold check_op, check_name, XA_NAME_MAX, XA_VALUE_MAX, legal_write.
  destruct (255 <? zlen n) eqn:E0; [right; split; [left; lia|right; split; [reflexivity|lia]]|].
  rewrite !andb_true_l.
  pose proof (has_prefix_begins n pfx_gnu) as P0. pose proof (has_prefix_begins n pfx_security) as P1.
  pose proof (has_prefix_begins n pfx_system) as P2. pose proof (has_prefix_begins n pfx_trusted) as P3.
  destruct (has_prefix n pfx_gnu); [right; split; [left; intros (_ & H & _); tauto|auto]|].
  destruct acl; cbn [negb andb].
  - destruct (2048 <? size) eqn:E; [right; split; [right; lia|auto]|].
    left. split; [reflexivity|]. split; [|lia]. split; [lia|]. split; [intuition congruence|discriminate].
  - destruct (has_prefix n pfx_security); cbn [orb];
      [right; split; [left; intros (_ & _ & H); specialize (H eq_refl); tauto|auto]|].
    destruct (has_prefix n pfx_system); cbn [orb];
      [right; split; [left; intros (_ & _ & H); specialize (H eq_refl); tauto|auto]|].
    destruct (has_prefix n pfx_trusted); cbn [orb];
      [right; split; [left; intros (_ & _ & H); specialize (H eq_refl); tauto|auto]|].
    destruct (2048 <? size) eqn:E; [right; split; [right; lia|auto]|].
    left. split; [reflexivity|]. split; [|lia]. split; [lia|]. intuition congruence.
Qed.

Lemma put_eq : forall m n v n', put m n v n' = if bytes_eqb n n' then v else m n'.
Proof.
  intros. unfold put. destruct (list_eq_dec Z.eq_dec n n') as [->|H].
  - rewrite bytes_eqb_refl. reflexivity.
  - destruct (bytes_eqb n n') eqn:E; auto. apply bytes_eqb_eq in E. congruence.
Qed.

(* names and values of the concatenation after inserting in one slot *)
Lemma insert_concat : forall (EA : list (list entry)) (es : list entry) (EB : list (list entry)) (x : entry), ~ In (fst x) (map fst (concat (EA ++ es :: EB))) ->
  NoDup (map fst (concat (EA ++ es :: EB))) ->
  NoDup (map fst (concat (EA ++ (es ++ [x]) :: EB))) /\
  forall n, aget (concat (EA ++ (es ++ [x]) :: EB)) n =
            if bytes_eqb (fst x) n then Some (snd x) else aget (concat (EA ++ es :: EB)) n.
Proof.
  intros EA es EB x Hn Hd. rewrite !concat_app in *. cbn [concat] in *.
  assert (E : concat EA ++ (es ++ [x]) ++ concat EB = (concat EA ++ es) ++ x :: concat EB).
  { rewrite <- !app_assoc. reflexivity. }
  rewrite E. rewrite app_assoc in Hn, Hd.
  assert (D : NoDup (map fst ((concat EA ++ es) ++ x :: concat EB))).
  { rewrite map_app in *. cbn [map]. apply NoDup_Add with (a := fst x) (l := map fst (concat EA ++ es) ++ map fst (concat EB)).
    - apply Add_app.
    - split; auto. }
  split; [exact D|]. intros n. rewrite (aget_nodup _ _ _ _ D). rewrite <- app_assoc. reflexivity.
Qed.

Lemma remove_concat : forall (EA : list (list entry)) (p : list entry) (x : entry) (q : list entry) (EB : list (list entry)), NoDup (map fst (concat (EA ++ (p ++ x :: q) :: EB))) ->
  NoDup (map fst (concat (EA ++ (p ++ q) :: EB))) /\ ~ In (fst x) (map fst (concat (EA ++ (p ++ q) :: EB))) /\
  (forall n, aget (concat (EA ++ (p ++ x :: q) :: EB)) n =
      if bytes_eqb (fst x) n then Some (snd x) else aget (concat (EA ++ (p ++ q) :: EB)) n).
Proof.
  intros EA p x q EB H. rewrite !concat_app in *. cbn [concat] in *.
  assert (E : concat EA ++ (p ++ x :: q) ++ concat EB = (concat EA ++ p) ++ x :: (q ++ concat EB)).
  { rewrite <- !app_assoc. reflexivity. }
  assert (E' : concat EA ++ (p ++ q) ++ concat EB = (concat EA ++ p) ++ (q ++ concat EB)).
  { rewrite <- !app_assoc. reflexivity. }
  rewrite E in *. rewrite E'. pose proof H as H0. rewrite map_app in H0. cbn [map] in H0.
  apply NoDup_remove in H0. rewrite <- map_app in H0. destruct H0. split; [auto|]. split; [auto|].
  intros n. apply aget_nodup. auto.
Qed.

Lemma inv0 : Inv xstate0 empty_map.
Proof.
  split; [reflexivity|]. exists (repeat [] 8). split; [|split].
  - unfold st_rep, xstate0, XA_NSLOTS. cbn [repeat]. repeat constructor.
  - constructor.
  - reflexivity.
Qed.

Lemma lookup_inv : forall st m name, Inv st m ->
  (lookup_entry st name = None /\ m name = None) \/
  (exists EA p x q EB, lookup_entry st name = Some (length EA, units p) /\
     st_rep st (EA ++ (p ++ x :: q) :: EB) /\ fst x = name /\ m name = Some (snd x) /\
     NoDup (map fst (concat (EA ++ (p ++ x :: q) :: EB))) /\
     (forall n, m n = aget (concat (EA ++ (p ++ x :: q) :: EB)) n) /\
     exists A s B, st = A ++ Some s :: B /\ length A = length EA /\ node_rep (s_mem s) (p ++ x :: q)).
Proof.
  intros st m name (L & ess & R & D & G). unfold lookup_entry.
  pose proof (lookup_spec st ess 0 name R) as H. destruct (lookup_at st 0 name) as [[j u]|].
  - right. destruct H as (A & s & B & EA & p & x & q & EB & -> & -> & H3 & -> & -> & H6 & H7 & H8 & H9).
    exists EA, p, x, q, EB. split; [rewrite <- H3; reflexivity|]. split; [exact R|]. split; [exact H6|].
    split; [|split; [exact D|split; [exact G|exists A, s, B; auto]]].
    rewrite G. destruct (remove_concat _ _ _ _ _ D) as (_ & _ & K). rewrite K, H6, bytes_eqb_refl. reflexivity.
  - left. split; [reflexivity|]. rewrite G. apply aget_none. exact H.
Qed.

Lemma getx_inv : forall st m, Inv st m -> observes st m.
Proof.
  intros st m I. split; [|split].
  - intros acl n Hn. unfold do_getxattr, check_op, check_name, XA_NAME_MAX, XA_VALUE_MAX.
    replace (255 <? zlen n) with false by lia. cbn [andb].
    replace (2048 <? 0) with false by lia.
    destruct (lookup_inv st m n I) as [[E M]|(EA & p & x & q & EB & E & R & Ex & M & D & G & A & s & B & Est & LA & NR)];
      rewrite E, M; split; try discriminate; intros; auto.
    inversion H; subst v. rewrite Est. rewrite <- LA. rewrite nth_error_split_at.
    destruct NR as (W & U & N & Bf). rewrite Bf.
    apply Forall_app in W. destruct W as [_ W]. inversion W as [|? ? We _]; subst.
    rewrite enc_app, enc_cons, <- !app_assoc.
    destruct (read_entry p x (enc q ++ zrepeat 0 (XUNIT * (XA_NENTS - units (p ++ x :: q)))) We)
      as (_ & E2 & _ & E4 & _). cbv zeta in E2, E4. rewrite E2, E4.
    split; [reflexivity|]. intros cap Hc. replace (cap =? 0) with false by lia.
    destruct (cap <? zlen (snd x)) eqn:Ec; [reflexivity|]. rewrite ztake_all by lia. reflexivity.
  - destruct I as (L & ess & R & D & G). 
    assert (E : do_listxattr st = map fst (concat ess)).
    { clear D G L. unfold do_listxattr. induction R as [|o es st ess Ro Rr IH]; [reflexivity|].
      cbn [flat_map concat]. rewrite map_app, IH. f_equal. destruct o as [s|]; cbn [slot_rep] in Ro.
      - apply emit_rep; auto.
      - subst; reflexivity. }
    rewrite E. auto.
  - destruct I as (L & ess & R & D & G). intros n.
    assert (E : do_listxattr st = map fst (concat ess)).
    { clear D G L. unfold do_listxattr. induction R as [|o es st ess Ro Rr IH]; [reflexivity|].
      cbn [flat_map concat]. rewrite map_app, IH. f_equal. destruct o as [s|]; cbn [slot_rep] in Ro.
      - apply emit_rep; auto.
      - subst; reflexivity. }
    rewrite E, G. pose proof (aget_none (concat ess) n) as K.
    destruct (aget (concat ess) n); split; intros; try congruence.
    + destruct (in_dec (list_eq_dec Z.eq_dec) n (map fst (concat ess))); auto.
      assert (@Some bytes b = None) by (apply K; auto). discriminate.
    + exfalso. apply K; auto.
Qed.

Lemma flush_rep : forall st ess, st_rep st ess -> st_rep (do_flush st) ess.
Proof.
  intros st ess R. induction R as [|o es st ess Ro Rr IH]; cbn [do_flush map]; constructor; auto.
  destruct o as [s|]; cbn [flush_slot option_map slot_rep] in *; auto. destruct (s_dirty s); auto.
Qed.

(* insertion of an absent name *)
Lemma insert_inv : forall st m name value orc, Inv st m -> m name = None -> wf_entry (name, value) ->
  forall e st' j, insert_at st 0 name value orc = (e, st', j) ->
  (e = XOk /\ Inv st' (put m name (Some value))) \/ (e = XNoSpc /\ Inv st' m).
Proof.
  intros st m name value orc (L & ess & R & D & G) Hm W e st' j H.
  pose proof (insert_spec _ _ _ _ _ _ _ _ _ R W H) as S. destruct e; try contradiction.
  - left. split; [reflexivity|]. destruct S as (EA & es & EB & -> & _ & R' & L' & _).
    split; [lia|]. eexists. split; [exact R'|].
    destruct (insert_concat EA es EB (name, value)) as [D' G']; auto.
    { apply aget_none. rewrite <- G. exact Hm. }
    split; [exact D'|]. intros n. rewrite put_eq, G', G. reflexivity.
  - right. split; [reflexivity|]. destruct S as (R' & L' & _). split; [lia|]. exists ess. auto.
Qed.

(* removal of an entry leaves the map without it *)
Lemma remove_inv : forall st m EA p x q EB,
  length st = XA_NSLOTS -> st_rep st (EA ++ (p ++ x :: q) :: EB) ->
  NoDup (map fst (concat (EA ++ (p ++ x :: q) :: EB))) ->
  (forall n, m n = aget (concat (EA ++ (p ++ x :: q) :: EB)) n) -> forall k,
  Inv (at_slot (at_slot st (length EA) (fun s => with_mem s (xan_remove (s_mem s) (units p)))) k dirtify)
      (put m (fst x) None).
Proof.
  intros st m EA p x q EB L R D G k. split; [rewrite !at_slot_length; exact L|].
  eexists. split; [apply at_slot_dirtify; apply (at_slot_remove st EA p x q EB); exact R|].
  destruct (remove_concat _ _ _ _ _ D) as (D' & N & K). split; [exact D'|].
  intros n. rewrite put_eq. destruct (bytes_eqb (fst x) n) eqn:E.
  - apply bytes_eqb_eq in E. subst n. symmetry. apply aget_none. exact N.
  - rewrite G, K, E. reflexivity.
Qed.

(* where an appended entry ends up relative to the old one, by slots *)
Lemma app_cons_inj : forall (A : Type) (a : list A) x b c y d, a ++ x :: b = c ++ y :: d ->
  (length a = length c /\ a = c /\ x = y /\ b = d) \/
  (exists e, c = a ++ x :: e /\ b = e ++ y :: d) \/ (exists e, a = c ++ y :: e /\ d = e ++ x :: b).
Proof.
  induction a as [|z a IH]; intros x b c y d H; destruct c as [|w c]; cbn [app] in H; inversion H; subst.
  - left. auto.
  - right; left. exists c. auto.
  - right; right. exists a. auto.
  - destruct (IH _ _ _ _ _ H2) as [(K1 & K2 & K3 & K4)|[(e & K1 & K2)|(e & K1 & K2)]]; subst.
    + left. auto.
    + right; left. exists e. auto.
    + right; right. exists e. auto.
Qed.

Lemma replace_inv : forall st m name value orc EA p x q EB,
  length st = XA_NSLOTS -> st_rep st (EA ++ (p ++ x :: q) :: EB) -> fst x = name ->
  NoDup (map fst (concat (EA ++ (p ++ x :: q) :: EB))) ->
  (forall n, m n = aget (concat (EA ++ (p ++ x :: q) :: EB)) n) -> wf_entry (name, value) ->
  forall e st', set_replace st name value (length EA) (units p) orc = (e, st') ->
  (e = XOk /\ Inv st' (put m name (Some value))) \/ (e = XNoSpc /\ Inv st' m).
Proof.
  intros st m name value orc EA p x q EB L R Ex D G W e st' H. unfold set_replace in H.
  destruct (insert_at st 0 name value orc) as [[e1 st1] j] eqn:E.
  pose proof (insert_spec _ _ _ _ _ _ _ _ _ R W E) as S.
  destruct e1; try contradiction; inversion H; subst e st'; clear H.
  2:{ right. split; [reflexivity|]. destruct S as (R' & L' & _). split; [lia|]. eexists; eauto. }
  left. split; [reflexivity|]. destruct S as (FA & es & FB & Eq & -> & R' & L' & _).
  destruct (remove_concat _ _ _ _ _ D) as (D' & N & K).
  split; [rewrite !at_slot_length; lia|].
  assert (Fin : forall HA hs HB, EA ++ (p ++ q) :: EB = HA ++ hs :: HB ->
     forall st2, st_rep st2 (HA ++ (hs ++ [(name, value)]) :: HB) ->
     exists ess, st_rep (at_slot st2 (0 + length FA) dirtify) ess /\ NoDup (map fst (concat ess)) /\
       forall n, put m name (Some value) n = aget (concat ess) n).
  { intros HA hs HB Eh st2 R2. eexists. split; [apply at_slot_dirtify; exact R2|].
    rewrite Eh in D', N, K. destruct (insert_concat HA hs HB (name, value)) as [D2 G2]; auto.
    { cbn [fst]. rewrite <- Ex. exact N. }
    split; [exact D2|]. intros n. rewrite put_eq, G2. cbn [fst snd].
    destruct (bytes_eqb name n) eqn:En; [reflexivity|]. rewrite G, K, Ex, En. reflexivity. }
  destruct (app_cons_inj _ _ _ _ _ _ _ Eq) as [(_ & -> & <- & ->)|[(f & -> & ->)|(f & -> & ->)]].
  - (* same slot *)
    apply (Fin FA (p ++ q) FB eq_refl).
    rewrite <- app_assoc in R'. cbn [app] in R'. rewrite <- app_assoc.
    apply at_slot_remove with (x := x). exact R'.
  - (* appended to a later slot *)
    apply (Fin (EA ++ (p ++ q) :: f) es FB); [rewrite <- app_assoc; reflexivity|].
    rewrite <- app_assoc in R' |- *. cbn [app] in R' |- *. apply at_slot_remove with (x := x). exact R'.
  - (* appended to an earlier slot *)
    apply (Fin FA es (f ++ (p ++ q) :: EB)); [rewrite <- app_assoc; reflexivity|].
    pose proof (at_slot_remove st1 (FA ++ (es ++ [(name, value)]) :: f) p x q EB) as Q.
    rewrite <- !app_assoc in Q. cbn [app] in Q. specialize (Q R').
    replace (length (FA ++ es :: f)) with (length (FA ++ (es ++ [(name, value)]) :: f))
      by (rewrite !app_length; reflexivity). exact Q.
Qed.

Lemma step_inv : forall st m o e st', Inv st m -> is_evict o = false -> xstep st o = (e, st') ->
  exists m', sstep m o e m' /\ Inv st' m'.
Proof.
  intros st m o e st' I Hev H. destruct o as [acl n v fl orc|acl n| |i]; cbn [xstep is_evict] in *; [| | |discriminate].
  - unfold do_setxattr in H. pose proof (zlen_nonneg _ v) as Hv.
    destruct (check_op_spec acl n (zlen v)) as [(C & Lw & Lv)|(Bad & C)].
    2:{ exists m. destruct C as [C|[C C']]; rewrite C in H; inversion H; subst; split; auto; apply s_illegal; auto. }
    rewrite C in H. unfold set_apply in H.
    assert (W : wf_entry (n, v)) by (split; cbn [fst snd]; [apply Lw|lia]).
    destruct (lookup_inv st m n I) as [[E M]|(EA & p & x & q & EB & E & R & Ex & M & D & G & _)]; rewrite E in H.
    + assert (INS : forall fl', fl' <> XFReplace -> (let '(e0, st1, _) := insert_at st 0 n v orc in (e0, st1)) = (e, st') ->
        exists m', sstep m (OSet acl n v fl' orc) e m' /\ Inv st' m').
      { intros fl' Hfl H'. destruct (insert_at st 0 n v orc) as [[e1 st1] j] eqn:EI. inversion H'; subst.
        destruct (insert_inv _ _ _ _ _ I M W _ _ _ EI) as [[-> I']|[-> I']].
        - exists (put m n (Some v)). split; auto. apply s_set; auto; congruence.
        - exists m. split; auto. apply s_nospc; auto; congruence. }
      destruct fl.
      * apply INS; [discriminate|auto].
      * apply INS; [discriminate|auto].
      * inversion H; subst. exists m. split; auto. apply s_nodata; auto.
    + assert (REP : forall fl', fl' <> XFCreate -> set_replace st n v (length EA) (units p) orc = (e, st') ->
        exists m', sstep m (OSet acl n v fl' orc) e m' /\ Inv st' m').
      { intros fl' Hfl H'. destruct I as [L _].
        destruct (replace_inv _ _ _ _ _ _ _ _ _ _ L R Ex D G W _ _ H') as [[-> I']|[-> I']].
        - exists (put m n (Some v)). split; auto. apply s_set; auto; congruence.
        - exists m. split; auto. apply s_nospc; auto; congruence. }
      destruct fl.
      * apply REP; [discriminate|auto].
      * inversion H; subst. exists m. split; auto. eapply s_exist; eauto.
      * apply REP; [discriminate|auto].
  - unfold do_removexattr in H.
    destruct (check_op_spec acl n 0) as [(C & Lw & _)|([Bad|Bad] & C)]; [| |lia].
    2:{ exists m. destruct C as [C|[C C']]; rewrite C in H; inversion H; subst; split; auto; apply s_rillegal; auto. }
    rewrite C in H.
    destruct (lookup_inv st m n I) as [[E M]|(EA & p & x & q & EB & E & R & Ex & M & D & G & _)]; rewrite E in H.
    + inversion H; subst. exists m. split; auto.
      destruct (bytes_eqb n acl_access || bytes_eqb n acl_default) eqn:B.
      * apply s_racl; auto. apply orb_true_iff in B. rewrite !bytes_eqb_eq in B. exact B.
      * apply s_rnone; auto. intros [-> | ->]; vm_compute in B; discriminate.
    + inversion H; subst. exists (put m (fst x) None). split; [eapply s_remove; eauto|].
      destruct I as [L _]. apply (remove_inv st m EA p x q EB); auto.
  - inversion H; subst. exists m. split; [constructor|].
    destruct I as (L & ess & R & D & G). split; [unfold do_flush; rewrite map_length; exact L|].
    exists ess. split; [apply flush_rep; auto|auto].
Qed.

Lemma run_inv : forall os st m h st', Inv st m -> forallb (fun o => negb (is_evict o)) os = true ->
  xrun st os = (h, st') -> exists m', sruns m h m' /\ Inv st' m'.
Proof.
  induction os as [|o os IH]; intros st m h st' I Hev H; cbn [xrun forallb] in *.
  - inversion H; subst. exists m. split; [constructor|auto].
  - apply andb_true_iff in Hev. destruct Hev as [H1 H2]. apply negb_true_iff in H1.
    destruct (xstep st o) as [e st1] eqn:E. destruct (xrun st1 os) as [h1 st2] eqn:E2. inversion H; subst.
    destruct (step_inv _ _ _ _ _ I H1 E) as (m1 & S & I1).
    destruct (IH _ _ _ _ I1 H2 E2) as (m2 & S2 & I2). exists m2. split; auto. econstructor; eauto.
Qed.

(* C07: after any history of sets, removals and flushes, with any outcomes of node
   allocation, every call was answered as a name -> value map prescribes, and reading and
   listing show exactly that map. *)
Theorem C07_xattr_map : forall os h st,
  forallb (fun o => negb (is_evict o)) os = true -> xrun xstate0 os = (h, st) ->
  exists m, sruns empty_map h m /\ observes st m.
Proof.
  intros os h st Hev H. destruct (run_inv os xstate0 empty_map h st inv0 Hev H) as (m & S & I).
  exists m. split; auto. apply getx_inv; auto.
Qed.

(* the map of the specification is a function of the answers *)
Theorem C07_map_determined : forall h m m1 m2, sruns m h m1 -> sruns m h m2 -> forall n, m1 n = m2 n.
Proof.
  assert (St : forall m m' o e m1 m2, (forall n, m n = m' n) -> sstep m o e m1 -> sstep m' o e m2 ->
     forall n, m1 n = m2 n).
  { intros m m' o e m1 m2 Q S1 S2 n.
    assert (P : forall k v, put m k v n = put m' k v n) by (intros; rewrite !put_eq, Q; reflexivity).
    inversion S1; subst; inversion S2; subst; auto; try congruence; exfalso;
      repeat match goal with H : _ \/ _ |- _ => destruct H | H : _ /\ _ |- _ => destruct H end;
      try discriminate; try lia; try tauto;
      repeat match goal with H : m _ = _ |- _ => rewrite Q in H end; congruence. }
  assert (Gen : forall h m m' m1 m2, (forall n, m n = m' n) -> sruns m h m1 -> sruns m' h m2 -> forall n, m1 n = m2 n).
  { induction h as [|[o e] h IH]; intros m m' m1 m2 Q R1 R2; inversion R1; subst; inversion R2; subst; auto.
    eapply IH; [|eassumption|eassumption]. eapply St; eauto. }
  intros h m m1 m2. apply Gen. reflexivity.
Qed.

Example C07_example :
  let os := [OSet false [117;46;97] [1;2;3] XFCreate [true]; OSet false [117;46;97] [9] XFCreate [];
             OSet false [117;46;97] [7;8] XFNone []; OFlush; OSet false [117;46;98] [] XFReplace [];
             OSet false [103;110;117;46;120] [1] XFNone []] in
  let '(h, st) := xrun xstate0 os in
  map snd h = [XOk; XExist; XOk; XOk; XNoData; XInval] /\
  do_getxattr false st [117;46;97] 100 = (XOk, 2, [7;8]) /\ do_listxattr st = [[117;46;97]].
Proof. vm_compute. auto. Qed.

Print Assumptions C07_xattr_map.
Print Assumptions C07_map_determined.

(* ---------- running out of room ---------- *)

(* the room an attribute takes, in 8-byte units *)
Definition footprint (n v : bytes) : Z := 1 + (zlen n + 7) / 8 + (zlen v + 7) / 8.
Definition total_footprint (m : xmap) (l : list bytes) : Z :=
  zsum (map (fun n => footprint n (match m n with Some v => v | None => [] end)) l).

Lemma footprint_eunits : forall e, footprint (fst e) (snd e) = eunits e.
Proof.
  intros e. unfold footprint, eunits, xe_calc_nents, xe_aligned, XUNIT.
  pose proof (zlen_nonneg _ (fst e)). pose proof (zlen_nonneg _ (snd e)). lia.
Qed.
Lemma zsum_units_concat : forall ess, zsum (map eunits (concat ess)) = zsum (map units ess).
Proof.
  induction ess as [|es ess IH]; [reflexivity|]. cbn [concat map]. rewrite map_app, zsum_app, zsum_cons, IH.
  reflexivity.
Qed.
Lemma list_is : forall st ess, st_rep st ess -> do_listxattr st = map fst (concat ess).
Proof.
  intros st ess R. unfold do_listxattr. induction R as [|o es st ess Ro Rr IH]; [reflexivity|].
  cbn [flat_map concat]. rewrite map_app, IH. f_equal. destruct o as [s|]; cbn [slot_rep] in Ro.
  - apply emit_rep; auto.
  - subst; reflexivity.
Qed.
Lemma total_footprint_units : forall m es, NoDup (map fst es) -> (forall n, m n = aget es n) ->
  total_footprint m (map fst es) = zsum (map eunits es).
Proof.
  intros m es D G. unfold total_footprint. rewrite map_map. f_equal. apply map_ext_in.
  intros e He. rewrite G. apply in_split in He. destruct He as (p & q & ->).
  rewrite (aget_nodup _ _ _ _ D), bytes_eqb_refl. apply footprint_eunits.
Qed.

Theorem C07_nospc_only_when_full : forall os h st acl n v fl orc,
  forallb (fun o => negb (is_evict o)) os = true -> xrun xstate0 os = (h, st) ->
  (8 <= length orc)%nat -> ~ In false orc ->
  forall m, sruns empty_map h m -> fst (xstep st (OSet acl n v fl orc)) = XNoSpc ->
  8 * (504 - footprint n v) < total_footprint m (do_listxattr st).
Proof.
  intros os h st acl n v fl orc Hev Hrun Lo Fo m Sm H.
  destruct (run_inv os xstate0 empty_map h st inv0 Hev Hrun) as (m' & S & I).
  assert (Em : forall k, m k = m' k) by (eapply C07_map_determined; eauto).
  destruct I as (L & ess & R & D & G).
  rewrite (list_is _ _ R). rewrite total_footprint_units by (auto; intros; rewrite Em; auto).
  rewrite zsum_units_concat. cbn [xstep] in H. unfold do_setxattr in H.
  destruct (check_op_spec acl n (zlen v)) as [(C & Lw & Lv)|(Bad & C)].
  2:{ exfalso. destruct C as [C|[C C']]; rewrite C in H; discriminate. }
  rewrite C in H.
  assert (W : wf_entry (n, v)) by (split; cbn [fst snd]; [apply Lw|lia]).
  assert (K : forall e st1 j, insert_at st 0 n v orc = (e, st1, j) -> e = XNoSpc ->
     8 * (504 - footprint n v) < zsum (map units ess)).
  { intros e st1 j E ->. pose proof (insert_spec _ _ _ _ _ _ _ _ _ R W E) as (_ & _ & [T|[T|T]]).
    - contradiction.
    - rewrite L in T. unfold XA_NSLOTS in T. lia.
    - pose proof (Forall2_length _ _ _ _ _ R) as L2. rewrite L in L2.
      change (footprint n v) with (footprint (fst (n, v)) (snd (n, v))). rewrite footprint_eunits.
      assert (Q : forall l, Forall (fun x => XA_NENTS < units x + eunits (n, v)) l ->
         zlen l * (505 - eunits (n, v)) <= zsum (map units l)).
      { induction 1 as [|x l Hx Hl IH]; [cbn; lia|].
        cbn [map]. rewrite zsum_cons, zlen_cons. unfold XA_NENTS in Hx. nia. }
      specialize (Q _ T). unfold zlen in Q at 1. rewrite <- L2 in Q. unfold XA_NSLOTS in Q. lia. }
  unfold set_apply in H.
  destruct fl, (lookup_entry st n) as [[i xe]|]; cbn [fst] in H; try discriminate;
    unfold set_replace in H;
    destruct (insert_at st 0 n v orc) as [[e st1] j] eqn:E; cbn [fst] in H; eapply K; eauto;
    destruct e; cbn [fst] in H; congruence.
Qed.

(* ---------- C08: histories with eviction ---------- *)

(* a clean node is equal to its stored copy *)
Definition clean_ok (st : xstate) : Prop :=
  Forall (fun o => match o with Some s => s_dirty s = false -> s_mem s = s_disk s | None => True end) st.

(* The restriction under which C08 is proved: a set that replaces an existing value puts
   the new entry into the node that held the old one. *)
Definition no_cross (st : xstate) (o : xop) : Prop :=
  match o with
  | OSet _ n v _ orc =>
    forall i xe st1 j, lookup_entry st n = Some (i, xe) -> insert_at st 0 n v orc = (XOk, st1, j) -> i = j
  | _ => True
  end.
Fixpoint no_cross_run (st : xstate) (os : list xop) : Prop :=
  match os with [] => True | o :: r => no_cross st o /\ no_cross_run (snd (xstep st o)) r end.

Lemma insert_clean : forall st k n v orc e st' j, clean_ok st -> insert_at st k n v orc = (e, st', j) ->
  clean_ok st' /\ (e = XOk -> exists A s B, st' = A ++ Some s :: B /\ j = (k + length A)%nat /\ s_dirty s = true).
Proof.
  induction st as [|o st IH]; intros k n v orc e st' j H E; cbn [insert_at] in E.
  - inversion E; subst. split; auto. discriminate.
  - inversion H as [|? ? Ho Hr]; subst.
    destruct o as [s|].
    + destruct (xan_insert (s_mem s) n v) as [nd|].
      * inversion E; subst. split; [constructor; [cbn; discriminate|auto]|].
        intros _. exists [], (dirtify (with_mem s nd)), st. cbn [length app]. repeat split; auto. 
      * destruct (insert_at st (S k) n v orc) as [[e1 r1] j1] eqn:E1. inversion E; subst.
        destruct (IH _ _ _ _ _ _ _ Hr E1) as [C D]. split; [constructor; auto|].
        intros He. destruct (D He) as (A & s' & B & -> & -> & Hd). exists (Some s :: A), s', B.
        cbn [length app]. repeat split; auto; lia.
    + destruct orc as [|[|] orc].
      * inversion E; subst. split; [auto|discriminate].
      * cbn [s_mem] in E. destruct (xan_insert xan_setup n v) as [nd|].
        -- inversion E; subst. split; [constructor; [cbn; discriminate|auto]|].
           intros _. eexists [], _, st. cbn [length app]. repeat split; auto. 
        -- destruct (insert_at st (S k) n v orc) as [[e1 r1] j1] eqn:E1. inversion E; subst.
           destruct (IH _ _ _ _ _ _ _ Hr E1) as [C D]. split; [constructor; auto; cbn; discriminate|].
           intros He. destruct (D He) as (A & s' & B & -> & -> & Hd).
           eexists (_ :: A), s', B. cbn [length app]. repeat split; auto; lia.
      * inversion E; subst. split; [auto|discriminate].
Qed.

Lemma at_slot_dirty_clean : forall st i f, clean_ok st ->
  (forall s, s_dirty (f s) = true \/ (s_mem (f s) = s_mem s /\ s_disk (f s) = s_disk s /\ s_dirty (f s) = s_dirty s)) ->
  clean_ok (at_slot st i f).
Proof.
  intros st i f H Hf. unfold at_slot. destruct (nth_error st i) as [[s|]|] eqn:E; auto.
  apply nth_error_split in E. destruct E as (A & B & -> & <-). rewrite upd_app.
  apply Forall_app in H. destruct H as [H1 H2]. inversion H2; subst. apply Forall_app. split; auto.
  constructor; auto. destruct (Hf s) as [D|(D1 & D2 & D3)]; [congruence|]. rewrite D1, D2, D3. auto.
Qed.

Lemma at_slot_at_slot : forall st i f g, at_slot (at_slot st i f) i g = at_slot st i (fun s => g (f s)).
Proof.
  intros st i f g. unfold at_slot. destruct (nth_error st i) as [[s|]|] eqn:E; [|rewrite E; reflexivity|rewrite E; reflexivity].
  apply nth_error_split in E. destruct E as (A & B & -> & <-). rewrite !upd_app, nth_error_split_at, !upd_app. reflexivity.
Qed.

Lemma step_clean : forall st o e st', clean_ok st -> no_cross st o -> xstep st o = (e, st') -> clean_ok st'.
Proof.
  intros st o e st' H NC E. destruct o as [acl n v fl orc|acl n| |i]; cbn [xstep no_cross] in *.
  - unfold do_setxattr in E. destruct (check_op acl true n (zlen v)); try (inversion E; subst; auto; fail).
    unfold set_apply in E.
    assert (INS : (let '(e0, st1, _) := insert_at st 0 n v orc in (e0, st1)) = (e, st') -> clean_ok st').
    { intros E'. destruct (insert_at st 0 n v orc) as [[e1 st1] j] eqn:EI. inversion E'; subst.
      eapply insert_clean; eauto. }
    destruct (lookup_entry st n) as [[i xe]|] eqn:EL.
    + assert (REP : set_replace st n v i xe orc = (e, st') -> clean_ok st').
      { intros E'. unfold set_replace in E'. destruct (insert_at st 0 n v orc) as [[e1 st1] j] eqn:EI.
        destruct (insert_clean _ _ _ _ _ _ _ _ H EI) as [C _].
        destruct e1; inversion E'; subst; auto.
        rewrite (NC i xe st1 j eq_refl eq_refl).
        rewrite at_slot_at_slot. apply at_slot_dirty_clean; auto. }
      destruct fl; auto. inversion E; subst; auto.
    + destruct fl; auto. inversion E; subst; auto.
  - unfold do_removexattr in E. destruct (check_op acl true n 0); try (inversion E; subst; auto; fail).
    destruct (lookup_entry st n) as [[i xe]|]; inversion E; subst; auto.
    rewrite at_slot_at_slot. apply at_slot_dirty_clean; auto.
  - inversion E; subst. unfold do_flush, clean_ok. apply Forall_map. eapply Forall_impl; [|exact H].
    intros [s|]; cbn [flush_slot option_map]; auto. destruct (s_dirty s) eqn:D; cbn; [auto|]. rewrite D. auto.
  - inversion E; subst. unfold do_evict. 
    unfold at_slot. destruct (nth_error st i) as [[s|]|] eqn:EN; auto.
    apply nth_error_split in EN. destruct EN as (A & B & -> & <-). rewrite upd_app.
    apply Forall_app in H. destruct H as [H1 H2]. inversion H2; subst. apply Forall_app. split; auto.
    constructor; auto. unfold evict_slot. destruct (s_dirty s) eqn:D; [intros; congruence|reflexivity].
Qed.

Lemma evict_inv : forall st m i, Inv st m -> clean_ok st -> Inv (do_evict st i) m.
Proof.
  intros st m i (L & ess & R & D & G) H. split; [unfold do_evict; rewrite at_slot_length; exact L|].
  exists ess. split; [|auto]. unfold do_evict, at_slot.
  destruct (nth_error st i) as [[s|]|] eqn:EN; auto.
  apply nth_error_split in EN. destruct EN as (A & B & -> & <-). rewrite upd_app.
  apply Forall_app in H. destruct H as [H1 H2]. inversion H2 as [|? ? Hs _]; subst.
  apply Forall2_app_inv_l in R. destruct R as (EA & EB & RA & RB & ->).
  inversion RB as [|? es ? EB' Ro RB']; subst. apply Forall2_app; auto. constructor; auto.
  cbn [slot_rep] in *. unfold evict_slot. destruct (s_dirty s); [auto|]. cbn [s_mem]. rewrite <- Hs by auto. auto.
Qed.

Lemma run_inv_evict : forall os st m h st', Inv st m -> clean_ok st -> no_cross_run st os ->
  xrun st os = (h, st') -> exists m', sruns m h m' /\ Inv st' m'.
Proof.
  induction os as [|o os IH]; intros st m h st' I C NC H; cbn [xrun no_cross_run] in *.
  - inversion H; subst. exists m. split; [constructor|auto].
  - destruct NC as [NC1 NC2]. destruct (xstep st o) as [e st1] eqn:E. cbn [snd] in NC2.
    destruct (xrun st1 os) as [h1 st2] eqn:E2. inversion H; subst.
    assert (S : exists m1, sstep m o e m1 /\ Inv st1 m1).
    { destruct (is_evict o) eqn:Ev; [|eapply step_inv; eauto].
      destruct o; try discriminate. cbn [xstep] in E. inversion E; subst. exists m.
      split; [constructor|apply evict_inv; auto]. }
    destruct S as (m1 & S & I1). pose proof (step_clean _ _ _ _ C NC1 E) as C1.
    destruct (IH _ _ _ _ I1 C1 NC2 E2) as (m2 & S2 & I2). exists m2. split; auto. econstructor; eauto.
Qed.

(* C08 (full statement, refuted below): for every history with flushes and evictions,
     xrun xstate0 os = (h, st) -> exists m, sruns empty_map h m /\ observes st m.
   Proved for histories in which no replacement moves an entry to another node. *)
Theorem C08_persist_partial : forall os h st, no_cross_run xstate0 os -> xrun xstate0 os = (h, st) ->
  exists m, sruns empty_map h m /\ observes st m.
Proof.
  intros os h st NC H. assert (C0 : clean_ok xstate0) by (unfold clean_ok, xstate0; cbn [repeat XA_NSLOTS]; repeat constructor).
  destruct (run_inv_evict os _ _ _ _ inv0 C0 NC H) as (m & S & I). exists m. split; auto. apply getx_inv; auto.
Qed.

(* In particular whenever all attributes, counted with every value ever set for them in
   the history, fit into one node. *)
Definition op_footprint (o : xop) : Z := match o with OSet _ n v _ _ => footprint n v | _ => 0 end.

Lemma one_node_insert : forall st ess n v orc st1 j, st_rep st ess -> wf_entry (n, v) ->
  zsum (map units ess) + footprint n v <= 504 -> insert_at st 0 n v orc = (XOk, st1, j) -> j = O.
Proof.
  intros st ess n v orc st1 j R W Hs E. pose proof (insert_spec _ _ _ _ _ _ _ _ _ R W E) as S.
  destruct S as (EA & es & EB & -> & -> & _ & _ & F). destruct EA as [|e0 EA]; [reflexivity|].
  exfalso. inversion F; subst. cbn [map app] in Hs. rewrite zsum_cons in Hs.
  change (footprint n v) with (footprint (fst (n, v)) (snd (n, v))) in Hs. rewrite footprint_eunits in Hs.
  assert (P : forall l, 0 <= zsum (map units l)).
  { induction l; [cbn; lia|]. cbn [map]. rewrite zsum_cons. pose proof (units_nonneg a). lia. }
  pose proof (P (EA ++ es :: EB)). unfold XA_NENTS in *. lia.
Qed.

Lemma lookup_first_slot : forall st n i xe, lookup_entry st n = Some (i, xe) ->
  (forall k o, nth_error st k = Some o -> k <> O -> match o with None => True | Some s => xan_search (s_mem s) n = None end) ->
  i = O.
Proof.
  intros st n i xe H K. unfold lookup_entry in H. destruct st as [|o st]; [discriminate|].
  assert (Z : forall st k, (forall j o, nth_error st j = Some o -> match o with None => True | Some s => xan_search (s_mem s) n = None end) ->
     lookup_at st k n = None).
  { induction st0 as [|o0 st0 IH]; intros k Q; [reflexivity|]. cbn [lookup_at].
    pose proof (Q O o0 eq_refl) as Q0. assert (Q' := fun j => Q (S j)). cbn [nth_error] in Q'.
    destruct o0; [rewrite Q0|]; apply IH; exact Q'. }
  assert (T : lookup_at st 1 n = None).
  { apply Z. intros j o0 Hj. apply (K (S j) o0); auto. }
  cbn [lookup_at] in H. destruct o as [s|]; [destruct (xan_search (s_mem s) n)|]; congruence.
Qed.

(* all entries sit in the first node *)
Definition one_node (st : xstate) (B : Z) : Prop :=
  exists es ess, st_rep st (es :: ess) /\ Forall (fun x => x = []) ess /\ units es <= B.

Lemma one_node_units : forall es ess, Forall (fun x : list entry => x = []) ess ->
  zsum (map units (es :: ess)) = units es.
Proof.
  intros es ess F. cbn [map]. rewrite zsum_cons. assert (zsum (map units ess) = 0); [|lia].
  induction F; [reflexivity|]. subst. cbn [map]. rewrite zsum_cons, IHF. reflexivity.
Qed.

Lemma one_node_step : forall st B o e st', one_node st B -> clean_ok st -> 0 <= B -> B + op_footprint o <= 504 ->
  xstep st o = (e, st') -> no_cross st o /\ one_node st' (B + op_footprint o).
Proof.
  intros st B o e st' (es & ess & R & F & U) C HB Hs E.
  assert (Grow : forall B', B <= B' -> one_node st B') by (intros; exists es, ess; split; auto; split; auto; lia).
  destruct o as [acl n v fl orc|acl n| |i]; cbn [xstep no_cross op_footprint] in *.
  - assert (Fp : 0 <= footprint n v).
    { change (footprint n v) with (footprint (fst (n, v)) (snd (n, v))). rewrite footprint_eunits.
      pose proof (eunits_pos (n, v)). lia. }
    assert (L0 : forall i xe, lookup_entry st n = Some (i, xe) ->
       i = O /\ exists p x q, es = p ++ x :: q /\ xe = units p).
    { intros i xe HL. unfold lookup_entry in HL. pose proof (lookup_spec st (es :: ess) 0 n R) as LS.
      rewrite HL in LS. destruct LS as (A & s & B1 & EA & p & x & q & EB & -> & EE & LA & -> & -> & _).
      destruct EA as [|e0 EA].
      - destruct A; [|discriminate]. cbn in EE. inversion EE; subst. split; [reflexivity|]. eauto.
      - exfalso. cbn in EE. inversion EE; subst. apply Forall_app in F. destruct F as [_ F]. inversion F; subst.
        destruct p; discriminate. }
    assert (Wf : check_op acl true n (zlen v) = XOk -> wf_entry (n, v)).
    { intros Ck. destruct (check_op_spec acl n (zlen v)) as [(_ & Lw & Lv)|(_ & [Q|[Q _]])]; try congruence.
      split; cbn [fst snd]; [apply Lw|lia]. }
    assert (EU : footprint n v = eunits (n, v)).
    { change (footprint n v) with (footprint (fst (n, v)) (snd (n, v))). apply footprint_eunits. }
    assert (INS : wf_entry (n, v) -> forall e1 st1 j, insert_at st 0 n v orc = (e1, st1, j) ->
        (e1 = XOk /\ j = O /\ st_rep st1 ((es ++ [(n, v)]) :: ess)) \/ (e1 = XNoSpc /\ one_node st1 (B + footprint n v))).
    { intros W e1 st1 j EI. pose proof (insert_spec _ _ _ _ _ _ _ _ _ R W EI) as S.
      destruct e1; try contradiction.
      - left. split; [reflexivity|]. assert (j = O).
        { eapply one_node_insert; eauto. rewrite one_node_units by auto. lia. }
        split; auto. destruct S as (EA & es1 & EB & EE & Hj & R' & _).
        destruct EA; [|cbn in Hj; lia]. cbn in EE, R'. inversion EE; subst. exact R'.
      - right. split; [reflexivity|]. destruct S as (R' & _). exists es, ess. split; auto. split; auto. lia. }
    assert (UA : units (es ++ [(n, v)]) = units es + footprint n v).
    { rewrite units_app, units_cons, EU. change (units []) with 0. lia. }
    split.
    + intros i xe st1 j HL HI. destruct (L0 _ _ HL) as [-> _].
      assert (W : wf_entry (n, v) \/ ~ wf_entry (n, v)).
      { unfold wf_entry. cbn [fst snd]. destruct (Z_le_gt_dec (zlen n) 255); destruct (Z_le_gt_dec (zlen v) 2048); [left|right|right|right]; lia. }
      (* outside the checked range the state is left alone, but the claim is still needed *)
      destruct W as [W|W].
      * destruct (INS W _ _ _ HI) as [(_ & -> & _)|(Q & _)]; [reflexivity|discriminate].
      * clear INS. revert HI. destruct st as [|[s|] st0]; cbn [insert_at]; [congruence| |].
        -- inversion R as [|? ? ? ? Ro Rr]; subst. cbn [slot_rep] in Ro. destruct Ro as (_ & _ & N & _).
           unfold xan_insert. rewrite N. change (xe_calc_nents (zlen n) (zlen v)) with (eunits (n, v)).
           replace (XA_NENTS - units es <? eunits (n, v)) with false by (unfold XA_NENTS; lia).
           intros HI; inversion HI; reflexivity.
        -- inversion R as [|? ? ? ? Ro Rr]; subst. cbn [slot_rep] in Ro. subst es.
           destruct (L0 _ _ HL) as (_ & p & x & q & Q & _). destruct p; discriminate.
    + unfold do_setxattr in E. destruct (check_op acl true n (zlen v)) eqn:Ck; try (inversion E; subst; apply Grow; lia).
      specialize (Wf eq_refl). specialize (INS Wf). unfold set_apply in E.
      destruct (insert_at st 0 n v orc) as [[e1 st1] j] eqn:EI.
      specialize (INS _ _ _ eq_refl).
      assert (I1 : one_node st1 (B + footprint n v)).
      { destruct INS as [(_ & _ & R')|(_ & Q)]; auto. exists (es ++ [(n, v)]), ess. split; auto. split; auto. lia. }
      destruct (lookup_entry st n) as [[i xe]|] eqn:HL.
      * assert (REP : set_replace st n v i xe orc = (e, st') -> one_node st' (B + footprint n v)).
        { unfold set_replace. rewrite EI. intros E'. destruct INS as [(-> & -> & R')|(-> & Q)]; inversion E'; subst; auto.
          destruct (L0 _ _ eq_refl) as (-> & p & x & q & -> & ->).
          exists (p ++ q ++ [(n, v)]), ess. split; [|split; [auto|]].
          - apply at_slot_dirtify. rewrite <- app_assoc in R'. cbn [app] in R'.
            pose proof (at_slot_remove st1 [] p x (q ++ [(n, v)]) ess R') as Q. exact Q.
          - rewrite <- app_assoc in UA. cbn [app] in UA. rewrite units_app, units_cons in UA.
            rewrite units_app. pose proof (eunits_pos x). lia. }
        destruct fl; auto. inversion E; subst. apply Grow; lia.
      * destruct fl; inversion E; subst; auto. apply Grow; lia.
  - split; [exact I|]. rewrite Z.add_0_r. unfold do_removexattr in E.
    destruct (check_op acl true n 0); try (inversion E; subst; apply Grow; lia).
    destruct (lookup_entry st n) as [[i xe]|] eqn:HL; [|inversion E; subst; apply Grow; lia].
    inversion E; subst. unfold lookup_entry in HL. pose proof (lookup_spec st (es :: ess) 0 n R) as LS.
    rewrite HL in LS. destruct LS as (A & s & B1 & EA & p & x & q & EB & -> & EE & LA & -> & -> & _).
    destruct EA as [|e0 EA].
    + destruct A; [|discriminate]. cbn in EE. inversion EE; subst.
      exists (p ++ q), EB. split; [|split; [auto|]].
      * apply at_slot_dirtify. cbn [app length Nat.add]. exact (at_slot_remove _ [] p x q EB R).
      * rewrite units_app, units_cons in U. rewrite units_app. pose proof (eunits_pos x). lia.
    + exfalso. cbn in EE. inversion EE; subst. apply Forall_app in F. destruct F as [_ F]. inversion F; subst.
      destruct p; discriminate.
  - split; [exact I|]. inversion E; subst. exists es, ess. split; [apply flush_rep; auto|]. split; auto. lia.
  - split; [exact I|]. inversion E; subst. rewrite Z.add_0_r. exists es, ess. split; [|auto].
    unfold do_evict, at_slot. destruct (nth_error st i) as [[s|]|] eqn:EN; auto.
    apply nth_error_split in EN. destruct EN as (A & B1 & -> & <-). rewrite upd_app.
    apply Forall_app in C. destruct C as [H1 H2]. inversion H2 as [|? ? Hs' _]; subst.
    apply Forall2_app_inv_l in R. destruct R as (EA & EB & RA & RB & EQ). rewrite EQ in *.
    inversion RB as [|? es0 ? EB' Ro RB']; subst. apply Forall2_app; auto. constructor; auto.
    cbn [slot_rep] in *. unfold evict_slot. destruct (s_dirty s); [auto|]. cbn [s_mem]. rewrite <- Hs' by auto. auto.
Qed.

Theorem C08_one_node : forall os h st, zsum (map op_footprint os) <= 504 -> xrun xstate0 os = (h, st) ->
  exists m, sruns empty_map h m /\ observes st m.
Proof.
  intros os h st Hs H. eapply C08_persist_partial; [|exact H]. clear H h st.
  assert (Pos : forall l, 0 <= zsum (map op_footprint l)).
  { induction l as [|o l IH]; [cbn; lia|]. cbn [map]. rewrite zsum_cons.
    assert (0 <= op_footprint o).
    { destruct o; cbn [op_footprint]; try lia.
      change (footprint name value) with (footprint (fst (name, value)) (snd (name, value))). rewrite footprint_eunits.
      pose proof (eunits_pos (name, value)). lia. }
    lia. }
  assert (Gen : forall os st B, one_node st B -> clean_ok st -> 0 <= B -> B + zsum (map op_footprint os) <= 504 ->
     no_cross_run st os).
  { induction os0 as [|o os0 IH]; intros st B On C HB Hb; [exact I|].
    cbn [map] in Hb. rewrite zsum_cons in Hb. cbn [no_cross_run].
    destruct (xstep st o) as [e st'] eqn:E. pose proof (Pos os0) as P. pose proof (Pos [o]) as P1.
    cbn [map] in P1. rewrite zsum_cons in P1. change (zsum []) with 0 in P1.
    destruct (one_node_step st B o e st' On C HB ltac:(lia) E) as [N O'].
    split; [exact N|]. cbn [snd]. eapply (IH st' (B + op_footprint o)); auto; try lia.
    eapply step_clean; eauto. }
  apply (Gen os xstate0 0); [|unfold clean_ok, xstate0; cbn [repeat XA_NSLOTS]; repeat constructor|lia|lia].
  exists [], (repeat [] 7). split; [unfold st_rep, xstate0, XA_NSLOTS; cbn [repeat]; repeat constructor|].
  split; [cbn [repeat]; repeat constructor|]. cbn; lia.
Qed.

(* C08 fails in general: a replacement that moves an attribute to another node marks only
   the new node dirty.  After write-back and eviction of the old node its stale copy is
   read again and the *old* value is returned. *)
Definition C08_ops : list xop :=
  [OSet false [117;46;97] (zrepeat 1 2048) XFNone [true];
   OSet false [117;46;98] (zrepeat 2 1900) XFNone [];
   OFlush;
   OSet false [117;46;97] (zrepeat 3 100) XFNone [true];
   OFlush; OEvict 0].
Theorem C08_replace_persists_refuted :
  exists os h st, xrun xstate0 os = (h, st) /\ ~ (exists m, sruns empty_map h m /\ observes st m).
Proof.
  exists C08_ops.
  destruct (xrun xstate0 C08_ops) as [h st] eqn:E. exists h, st. split; [reflexivity|].
  assert (Eh : h = map (fun o => (o, XOk)) C08_ops).
  { change h with (fst (h, st)). rewrite <- E. vm_compute. reflexivity. }
  assert (G : do_getxattr false st [117;46;97] 4096 = (XOk, 2048, zrepeat 1 2048)).
  { change st with (snd (h, st)). rewrite <- E. vm_compute. reflexivity. }
  clear E. subst h. intros (m & S & O & _).
  assert (M : m [117;46;97] = Some (zrepeat 3 100)).
  { cbn [C08_ops map] in S.
    repeat match goal with
    | H : sruns _ ((_, _) :: _) _ |- _ => inversion H; subst; clear H
    | H : sruns _ [] _ |- _ => inversion H; subst; clear H
    end.
    repeat match goal with
    | H : sstep _ (OSet _ _ _ _ _) XOk _ |- _ => inversion H; subst; clear H;
        try (match goal with H : XOk = XInval \/ _ |- _ => destruct H as [H|[H _]]; discriminate end)
    | H : sstep _ OFlush _ _ |- _ => inversion H; subst; clear H
    | H : sstep _ (OEvict _) _ _ |- _ => inversion H; subst; clear H
    end.
    vm_compute. reflexivity. }
  destruct (O false [117;46;97] ltac:(vm_compute; discriminate)) as [_ O2].
  destruct (O2 _ M) as [_ O3]. specialize (O3 4096 ltac:(lia)). rewrite G in O3. vm_compute in O3. discriminate.
Qed.

Example C08_one_node_example :
  let os := [OSet false [117;46;97] [1;2;3] XFNone [true]; OFlush; OSet false [117;46;97] [4] XFNone [];
             OFlush; OEvict 0] in
  zsum (map op_footprint os) <= 504 /\
  do_getxattr false (snd (xrun xstate0 os)) [117;46;97] 10 = (XOk, 1, [4]).
Proof. vm_compute. split; [discriminate|reflexivity]. Qed.

Print Assumptions C07_nospc_only_when_full.
Print Assumptions C08_persist_partial.
Print Assumptions C08_one_node.
Print Assumptions C08_replace_persists_refuted.
