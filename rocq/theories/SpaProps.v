(* C21: the free-range cache hands out exactly what it was given. *)
From Verif Require Import Base AddrModel SpaModel SpaProofs.

(* ---- what the caller sees ---- *)
(* give a range (a: whether memory for an entry is available), ask for a length, empty it *)
Inductive cop := CGive (off len : Z) (a : bool) | CTake (len : Z) | CDrop.
Inductive cout := CDone | CFail | CGot (off : Z).
Definition cstep (m : spamap) (o : cop) : option (spamap * cout) :=
  match o with
  | CGive off len a => match spamap_add m off len a with SOk m' => Some (m', CDone) | SErr m' => Some (m', CFail) | SUb => None end
  | CTake len => match spamap_pop m len with Some (m', off) => Some (m', CGot off) | None => Some (m, CFail) end
  | CDrop => Some (spamap_clear m, CDone)
  end.
Fixpoint crun (m : spamap) (ops : list cop) : option (spamap * list cout) :=
  match ops with
  | [] => Some (m, [])
  | o :: r => match cstep m o with
              | None => None
              | Some (m', x) => option_map (fun p => (fst p, x :: snd p)) (crun m' r)
              end
  end.

(* ---- the ledger: which bytes are with the cache, from the calls and their results only ---- *)
Definition range (off len b : Z) : bool := (off <=? b) && (b <? off + len).
Definition ledger_next (L : Z -> bool) (o : cop) (x : cout) : Z -> bool :=
  match o, x with
  | CGive off len _, CDone => fun b => L b || range off len b
  | CTake len, CGot off => fun b => L b && negb (range off len b)
  | CDrop, _ => fun _ => false
  | _, _ => L
  end.
(* callers give non-empty ranges that are not with the cache already *)
Definition lawful (L : Z -> bool) (o : cop) : Prop :=
  match o with
  | CGive off len _ => 0 < len /\ (forall b, range off len b = true -> L b = false)
  | CTake len => 0 < len
  | CDrop => True
  end.
Fixpoint legal (m : spamap) (L : Z -> bool) (ops : list cop) : Prop :=
  match ops with
  | [] => True
  | o :: r => lawful L o /\
              match cstep m o with Some (m', x) => legal m' (ledger_next L o x) r | None => True end
  end.
(* every range handed out was with the cache *)
Fixpoint backed (L : Z -> bool) (ops : list cop) (outs : list cout) : Prop :=
  match ops, outs with
  | o :: r, x :: s =>
    match o, x with
    | CTake len, CGot off => forall b, range off len b = true -> L b = true
    | _, _ => True
    end /\ backed (ledger_next L o x) r s
  | _, _ => True
  end.
(* a request for one unit is refused only when nothing is with the cache *)
Fixpoint generous (u : Z) (L : Z -> bool) (ops : list cop) (outs : list cout) : Prop :=
  match ops, outs with
  | o :: r, x :: s =>
    match o, x with
    | CTake len, CFail => len = u -> forall b, L b = false
    | _, _ => True
    end /\ generous u (ledger_next L o x) r s
  | _, _ => True
  end.

Definition mem_ok (o : cop) : Prop := match o with CGive _ _ a => a = true | _ => True end.
Definition whole_units (u : Z) (o : cop) : Prop :=
  match o with CGive _ len _ => len mod u = 0 | CTake len => len mod u = 0 | CDrop => True end.
Definition not_refused (o : cop) (x : cout) : Prop := match o with CGive _ _ _ => x = CDone | _ => True end.

(* ---- proofs ---- *)
Definition sub_ledger (m : spamap) (L : Z -> bool) : Prop := forall b, cnt m b <= Z.b2z (L b).
Definition eq_ledger (m : spamap) (L : Z -> bool) : Prop := forall b, cnt m b = Z.b2z (L b).

Lemma cnt_nn : forall m b, 0 <= cnt m b.
Proof. intros. unfold cnt. pose proof (ecnt_nn (sp_ents m) b). pose proof (lcnt_nn (sp_ulen m) (sp_lifo m) b). lia. Qed.
Lemma sub_free : forall m L off len, sub_ledger m L -> (forall b, range off len b = true -> L b = false) ->
  forall b, off <= b < off + len -> cnt m b = 0.
Proof.
  intros m L off len S H b Hb. specialize (S b). rewrite H in S by (unfold range; lia). simpl in S. pose proof (cnt_nn m b). lia.
Qed.
Lemma cnt_clear : forall m b, cnt (spamap_clear m) b = 0. Proof. reflexivity. Qed.
Lemma clear_inv : forall m, spa_inv m -> spa_inv (spamap_clear m).
Proof.
  intros m [_ [_ [_ I4]]]. split; [intros; rewrite cnt_clear; lia|]. cbn. split; [constructor|]. split; [constructor|auto].
Qed.

Lemma step_backed : forall m L o m' x, spa_inv m -> sub_ledger m L -> lawful L o -> cstep m o = Some (m', x) ->
  spa_inv m' /\ sub_ledger m' (ledger_next L o x) /\ backed L [o] [x].
Proof.
  intros m L o m' x I S Hleg H. destruct o as [off len a|len|]; cbn [cstep] in H.
  - destruct Hleg as [Hl Hd]. pose proof (add_ok m off len a I Hl (sub_free _ _ _ _ S Hd)) as A.
    destruct (spamap_add m off len a) as [m1|m1|]; [| |discriminate]; injection H as <- <-.
    + destruct A as [A1 A2]. split; auto. split; [|cbn; auto]. intros b. rewrite A2. specialize (S b). cbn [ledger_next].
      pose proof (cnt_nn m b). destruct (range off len b) eqn:R.
      * rewrite (Hd b R) in *. unfold range in R. unfold in_rng. rewrite R. simpl in *. lia.
      * unfold range in R. unfold in_rng. rewrite R. rewrite orb_false_r. simpl. lia.
    + destruct A as [[A1 A2] _]. split; auto. split; [|cbn; auto]. intros b. cbn [ledger_next]. specialize (A2 b). specialize (S b). lia.
  - destruct (spamap_pop m len) as [[m1 off]|] eqn:P; injection H as <- <-.
    + destruct (pop_ok _ _ _ _ I Hleg P) as [P1 P2].
      assert (B : forall b, range off len b = true -> L b = true).
      { intros b R. pose proof (pop_held _ _ _ _ b I Hleg P) as Q. specialize (S b). destruct (L b); [auto|].
        unfold range in R. simpl in S. lia. }
      split; auto. split; [|cbn; auto]. intros b. rewrite P2. cbn [ledger_next]. specialize (S b).
      destruct (range off len b) eqn:R.
      * rewrite (B b R) in *. unfold range in R. unfold in_rng. rewrite R. simpl in *. lia.
      * unfold range in R. unfold in_rng. rewrite R. rewrite andb_true_r. simpl. lia.
    + split; auto. split; [auto|cbn; auto].
  - injection H as <- <-. split; [apply clear_inv; auto|]. split; [|cbn; auto]. intros b. rewrite cnt_clear. simpl. lia.
Qed.

Lemma run_backed : forall ops m L m' outs, spa_inv m -> sub_ledger m L -> crun m ops = Some (m', outs) ->
  legal m L ops -> backed L ops outs.
Proof.
  induction ops as [|o r IH]; intros m L m' outs I S H Hl; [exact Logic.I|]. cbn [crun legal] in H, Hl.
  destruct (cstep m o) as [[m1 x]|] eqn:E; [|discriminate].
  destruct (crun m1 r) as [[m2 xs]|] eqn:R; [|discriminate]. injection H as <- <-. cbn [fst snd] in *.
  destruct Hl as [H1 H2]. destruct (step_backed m L o m1 x I S) as [A [B C]]; auto.
  split; [destruct C as [C _]; exact C|]. eapply IH; eauto.
Qed.

Lemma init_inv : forall t, ltype_isvnode t = true -> spa_inv (spamap_init t) /\ sub_ledger (spamap_init t) (fun _ => false).
Proof.
  intros t Ht. split; [|intros b; cbn; lia]. split; [intros b; cbn; lia|]. cbn. split; [constructor|]. split; [constructor|].
  unfold ltype_isvnode, LT_INODE, LT_DATABK in Ht.
  assert (C : t = 5 \/ t = 6 \/ t = 7 \/ t = 8 \/ t = 9 \/ t = 10 \/ t = 11 \/ t = 12) by lia.
  decompose [or] C; subst t; reflexivity.
Qed.

(* C21: for every history of gives, takes and drops of a cache of any object kind, with any memory
   allocations failing, every range taken lies in what was given and not taken since. *)
Theorem C21_backed : forall t ops m outs, ltype_isvnode t = true ->
  crun (spamap_init t) ops = Some (m, outs) -> legal (spamap_init t) (fun _ => false) ops -> backed (fun _ => false) ops outs.
Proof. intros t ops m outs Ht H L. destruct (init_inv t Ht) as [I S]. eapply run_backed; eauto. Qed.
Print Assumptions C21_backed.

Lemma step_exact : forall u m L o m' x, spa_inv m -> eq_ledger m L -> mult_inv u m -> lawful L o ->
  whole_units u o -> not_refused o x -> 0 < u -> cstep m o = Some (m', x) ->
  spa_inv m' /\ eq_ledger m' (ledger_next L o x) /\ mult_inv u m' /\ generous u L [o] [x].
Proof.
  intros u m L o m' x I S M Hleg W N Hu H. destruct o as [off len a|len|]; cbn [cstep] in H.
  - destruct Hleg as [Hl Hd].
    assert (S' : sub_ledger m L) by (intros b; rewrite S; lia).
    pose proof (add_ok m off len a I Hl (sub_free _ _ _ _ S' Hd)) as A.
    pose proof (add_mult m off len a u Hu M W) as A'.
    destruct (spamap_add m off len a) as [m1|m1|]; [| |discriminate]; injection H as <- <-; [|discriminate].
    destruct A as [A1 A2]. split; auto. split; [|split; [auto|cbn; auto]]. intros b. rewrite A2, S. cbn [ledger_next].
    destruct (range off len b) eqn:R.
    + rewrite (Hd b R) in *. unfold range in R. unfold in_rng. rewrite R. reflexivity.
    + unfold range in R. unfold in_rng. rewrite R. rewrite orb_false_r. simpl. lia.
  - destruct (spamap_pop m len) as [[m1 off]|] eqn:P; injection H as <- <-.
    + destruct (pop_ok _ _ _ _ I Hleg P) as [P1 P2]. pose proof (pop_mult _ _ _ _ _ Hu M W P).
      split; auto. split; [|split; [auto|cbn; auto]]. intros b. rewrite P2, S. cbn [ledger_next].
      destruct (range off len b) eqn:R.
      * pose proof (pop_held _ _ _ _ b I Hleg P) as Q. rewrite S in Q. unfold range in R. unfold in_rng. rewrite R.
        destruct (L b); simpl in *; lia.
      * unfold range in R. unfold in_rng. rewrite R. rewrite andb_true_r. simpl. lia.
    + split; auto. split; auto. split; auto. split; [|exact Logic.I]. intros -> b.
      destruct (pop_none_empty _ _ I M P) as [P1 P2]. specialize (S b). unfold cnt in S. rewrite P1, P2 in S. cbn in S.
      destruct (L b); simpl in S; [lia|auto].
  - injection H as <- <-. split; [apply clear_inv; auto|]. split; [intros b; rewrite cnt_clear; reflexivity|].
    split; [destruct M; split; cbn; auto|cbn; auto].
Qed.

Lemma run_exact : forall u ops m L m' outs, 0 < u -> spa_inv m -> eq_ledger m L -> mult_inv u m ->
  crun m ops = Some (m', outs) -> legal m L ops -> Forall (whole_units u) ops -> Forall2 not_refused ops outs ->
  generous u L ops outs.
Proof.
  induction ops as [|o r IH]; intros m L m' outs Hu I S M H Hl W N; [exact Logic.I|]. cbn [crun legal] in H, Hl.
  destruct (cstep m o) as [[m1 x]|] eqn:E; [|discriminate].
  destruct (crun m1 r) as [[m2 xs]|] eqn:R; [|discriminate]. injection H as <- <-. cbn [fst snd] in *.
  destruct Hl as [H1 H2]. inversion W; subst. inversion N; subst.
  destruct (step_exact u m L o m1 x I S M) as [A [B [C D]]]; auto.
  split; [destruct D as [D _]; exact D|]. eapply IH; eauto.
Qed.

(* C21: nothing given is lost: as long as no gift was refused, a unit is denied only when
   everything given was taken back. *)
Theorem C21_nothing_lost : forall t ops m outs, ltype_isvnode t = true ->
  crun (spamap_init t) ops = Some (m, outs) -> legal (spamap_init t) (fun _ => false) ops ->
  Forall (whole_units (ltype_size t)) ops -> Forall2 not_refused ops outs ->
  generous (ltype_size t) (fun _ => false) ops outs.
Proof.
  intros t ops m outs Ht H L W N. destruct (init_inv t Ht) as [I S].
  eapply run_exact; eauto.
  - destruct I as [_ [_ [_ I4]]]. exact I4.
  - intros b. reflexivity.
  - split; [reflexivity|constructor].
Qed.
Print Assumptions C21_nothing_lost.

(* C21: with memory available no call touches freed memory. *)
Theorem C21_defined : forall t ops, ltype_isvnode t = true -> Forall mem_ok ops ->
  legal (spamap_init t) (fun _ => false) ops -> exists m outs, crun (spamap_init t) ops = Some (m, outs).
Proof.
  intros t ops Ht Hm. destruct (init_inv t Ht) as [I S]. revert I S. generalize (spamap_init t) (fun _ : Z => false).
  clear t Ht. induction ops as [|o r IH]; intros m L I S Hleg; [exists m, []; reflexivity|]. cbn [crun].
  inversion Hm as [|? ? Ho Hr]; subst. cbn [legal] in Hleg. destruct Hleg as [H0 Hleg].
  assert (E : exists m1 x, cstep m o = Some (m1, x)).
  { destruct o as [off len a|len|]; cbn [cstep].
    - destruct H0 as [Hl Hd]. pose proof (add_ok m off len a I Hl (sub_free _ _ _ _ S Hd)) as A. cbn in Ho.
      destruct (spamap_add m off len a); eauto. congruence.
    - destruct (spamap_pop m len) as [[m1 off]|]; eauto.
    - eauto. }
  destruct E as [m1 [x E]]. rewrite E in *.
  destruct (step_backed m L o m1 x I S) as [A [B C]]; auto.
  destruct (IH Hr m1 (ledger_next L o x) A B Hleg) as [m2 [xs R]].
  rewrite R. cbn. eauto.
Qed.
Print Assumptions C21_defined.

(* C21, claim refuted: when memory runs out, recording a range below the last one frees an entry that stays
   linked in the tree (spamap_insert_vspace, lib/spxmap.c:350-375: spamap_delete_spe without
   spamap_remove_spe).  Here: a leaf's range is recorded, then the range of an earlier leaf. *)
Theorem C21_out_of_memory_refuted :
  exists ops, legal (spamap_init LT_INODE) (fun _ => false) ops /\ crun (spamap_init LT_INODE) ops = None.
Proof.
  exists [CGive 33554432 16777216 true; CGive 0 16777216 false]. split; [|vm_compute; reflexivity].
  cbn [legal lawful ledger_next cstep]. split; [split; [lia|auto]|].
  replace (spamap_add (spamap_init LT_INODE) 33554432 16777216 true)
    with (SOk (mkSpa [] 1024 [mkSpe 33554432 16777216] 4194304 0)) by reflexivity.
  split; [split; [lia|]|].
  - intros b. unfold range. lia.
  - replace (spamap_add _ 0 16777216 false) with SUb by reflexivity. exact Logic.I.
Qed.
Print Assumptions C21_out_of_memory_refuted.

(* ---- non-vacuity: three inode-sized units and a merged range, taken in pieces ---- *)
Definition ex_ops : list cop :=
  [CGive 8192 4096 true; CGive 12288 4096 true; CGive 0 1024 true; CTake 1024; CTake 1024; CGive 4096 4096 true;
   CTake 2048; CTake 1024; CDrop; CTake 1024].
Example C21_example : exists m outs, crun (spamap_init LT_INODE) ex_ops = Some (m, outs) /\
  outs = [CDone; CDone; CDone; CGot 0; CGot 8192; CDone; CGot 4096; CGot 6144; CDone; CFail] /\
  legal (spamap_init LT_INODE) (fun _ => false) ex_ops /\ Forall (whole_units 1024) ex_ops /\ Forall2 not_refused ex_ops outs.
Proof.
  eexists _, _. split; [vm_compute; reflexivity|]. split; [reflexivity|]. split.
  - unfold ex_ops. unfold legal.
    repeat (split; [first [reflexivity | exact Logic.I | split; [reflexivity|intros b; cbn [ledger_next]; unfold range; lia]]|];
            match goal with |- context [cstep ?m ?o] => let r := eval vm_compute in (cstep m o) in
               change (cstep m o) with r; cbv beta iota | _ => idtac end).
    exact Logic.I.
  - split; repeat constructor.
Qed.
