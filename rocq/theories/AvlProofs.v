(* Contents, order and balance of the index. *)
From Coq Require Import Permutation Sorting.Sorted.
From Verif Require Import Base AvlModel.

Arguments Leaf {K}.
Arguments Node {K}.
Arguments FL {K}.
Arguments FR {K}.
Arguments nd_id {K}.
Arguments nd_key {K}.
Arguments mkNd {K}.
Arguments mkAvl {K}.
Arguments a_root {K}.
Arguments a_min {K}.
Arguments a_max {K}.
Arguments a_size {K}.
Arguments depth {K}.
Arguments balance {K}.
Arguments fbal {K}.
Arguments join {K}.
Arguments plug {K}.
Arguments oplug {K}.
Arguments is_leaf {K}.
Arguments is_left {K}.
Arguments is_right {K}.
Arguments rotate_left {K}.
Arguments rotate_right {K}.
Arguments rotate_left_right {K}.
Arguments rotate_right_left {K}.
Arguments insert_fixup {K}.
Arguments delete_fixup {K}.
Arguments descend_min {K}.
Arguments avl_delete {K}.
Arguments locate {K}.
Arguments minimum {K}.
Arguments maximum {K}.
Arguments up_succ {K}.
Arguments up_pred {K}.
Arguments successor_at {K}.
Arguments predecessor_at {K}.
Arguments avl_empty {K}.
Arguments avl_remove {K}.
Arguments fix_min {K}.
Arguments fix_max {K}.
Arguments insert_at {K}.
Arguments insert_root {K}.
Arguments replace_exists {K}.
Arguments walk {K}.
Arguments rwalk {K}.
Arguments avl_walk {K}.
Arguments avl_rwalk {K}.
Arguments next_of {K}.
Arguments prev_of {K}.

Section P.
Variable K : Type.
Notation anode := (anode K).
Notation tree := (tree K).
Notation path := (list (frame K)).
Implicit Types (t l r : tree) (p q : path) (x y z : anode).

(* ---- contents ---- *)
Fixpoint inorder (t : tree) : list anode :=
  match t with Leaf => [] | Node l x _ r => inorder l ++ x :: inorder r end.
Fixpoint lefts (p : path) : list anode :=
  match p with [] => [] | FL _ _ _ :: q => lefts q | FR l x _ :: q => lefts q ++ inorder l ++ [x] end.
Fixpoint rights (p : path) : list anode :=
  match p with [] => [] | FL x _ r :: q => x :: inorder r ++ rights q | FR _ _ _ :: q => rights q end.

Lemma inorder_plug : forall p t, inorder (plug t p) = lefts p ++ inorder t ++ rights p.
Proof.
  induction p as [|[x b r|l x b] q IH]; intros t; cbn [plug lefts rights].
  - now rewrite app_nil_r.
  - rewrite IH. cbn [inorder]. now rewrite <- !app_assoc.
  - rewrite IH. cbn [inorder]. now rewrite <- !app_assoc.
Qed.

Lemma plug_app : forall q p t, plug t (q ++ p) = plug (plug t q) p.
Proof. induction q as [|[x b r|l x b] q IH]; intros p t; cbn [app plug]; auto. Qed.

Lemma lefts_app : forall q p, lefts (q ++ p) = lefts p ++ lefts q.
Proof.
  induction q as [|[x b r|l x b] q IH]; intros p; cbn [app lefts]; rewrite ?app_nil_r, ?IH; auto.
  now rewrite <- !app_assoc.
Qed.
Lemma rights_app : forall q p, rights (q ++ p) = rights q ++ rights p.
Proof.
  induction q as [|[x b r|l x b] q IH]; intros p; cbn [app rights]; rewrite ?IH; auto.
  cbn [app]. now rewrite <- !app_assoc.
Qed.

(* ---- balance ---- *)
Fixpoint bal (t : tree) : Prop :=
  match t with
  | Leaf => True
  | Node l _ b r => bal l /\ bal r /\ b = depth r - depth l /\ -1 <= b <= 1
  end.
(* frames around a hole of depth h *)
Fixpoint pbal (p : path) (h : Z) : Prop :=
  match p with
  | [] => True
  | FL _ b r :: q => bal r /\ b = depth r - h /\ -1 <= b <= 1 /\ pbal q (1 + Z.max h (depth r))
  | FR l _ b :: q => bal l /\ b = h - depth l /\ -1 <= b <= 1 /\ pbal q (1 + Z.max (depth l) h)
  end.

Lemma depth_nonneg : forall t, 0 <= depth t.
Proof. induction t as [|l IHl x b r IHr]; cbn [depth]; lia. Qed.

Lemma depth_leaf : forall t, depth t = 0 -> t = Leaf.
Proof. intros [|l x b r] H; auto. cbn [depth] in H. pose proof (depth_nonneg l). pose proof (depth_nonneg r). lia. Qed.

Lemma bal_plug : forall p t, bal t -> pbal p (depth t) -> bal (plug t p).
Proof.
  induction p as [|[x b r|l x b] q IH]; intros t Ht Hp; cbn [plug pbal] in *; auto.
  - destruct Hp as (A & B & C & D). apply IH; [cbn [bal]; auto|cbn [depth]; auto].
  - destruct Hp as (A & B & C & D). apply IH; [cbn [bal]; auto|cbn [depth]; auto].
Qed.

Lemma plug_bal : forall p t, bal (plug t p) -> bal t /\ pbal p (depth t).
Proof.
  induction p as [|[x b r|l x b] q IH]; intros t H; cbn [plug pbal] in *; auto.
  - apply IH in H. cbn [bal depth] in H. tauto.
  - apply IH in H. cbn [bal depth] in H. tauto.
Qed.

Ltac dpos := repeat match goal with
  | t : AvlModel.tree K |- _ =>
    lazymatch goal with
    | _ : 0 <= depth t |- _ => fail
    | _ => pose proof (depth_nonneg t)
    end
  end.
Ltac zb := repeat match goal with
  | |- context [?a =? ?b] => destruct (Z.eqb_spec a b)
  | H : context [?a =? ?b] |- _ => destruct (Z.eqb_spec a b)
  end.

(* ---- insertion ---- *)
Ltac inord := rewrite ?inorder_plug; cbn [inorder]; rewrite <- ?app_assoc; cbn [app]; rewrite <- ?app_assoc; try reflexivity.
Lemma insert_fixup_ok : forall p t h,
  bal t -> t <> Leaf -> depth t = h + 1 -> 0 <= h -> (balance t <> 0 \/ h = 0) -> pbal p h ->
  exists t', insert_fixup t p = Some t' /\ bal t' /\ inorder t' = lefts p ++ inorder t ++ rights p.
Proof.
  induction p as [|f q IH]; intros t h Ht Hn Hd Hh Hb Hp.
  - exists t. cbn. rewrite app_nil_r. auto.
  - assert (Hnl : is_leaf t = false) by (destruct t; [congruence|reflexivity]).
    destruct f as [x b r|l x b]; cbn [insert_fixup fbal join is_left pbal lefts rights] in *.
    + destruct Hp as (Hr & Eb & Bb & Hq). destruct (Z.eqb_spec b 1) as [E1|E1].
      * exists (plug (Node t x 0 r) q). split; [reflexivity|]. split.
        -- apply bal_plug; cbn [bal depth]; [repeat split; auto; lia|].
           now replace (1 + Z.max (depth t) (depth r)) with (1 + Z.max h (depth r)) by lia.
        -- inord.
      * destruct (Z.eqb_spec b (-1)) as [E2|E2].
        -- destruct t as [|tl tx tb tr]; [congruence|]. cbn [balance] in *.
           cbn [bal depth] in Ht, Hd. destruct Ht as (Htl & Htr & Etb & Btb).
           destruct (Z.eqb_spec tb 1) as [E3|E3].
           ++ destruct tr as [|cl cx cb cr]; [cbn [depth] in *; dpos; lia|].
              cbn [bal depth] in Htr, Hd, Etb. destruct Htr as (Hcl & Hcr & Ecb & Bcb). dpos.
              eexists. cbn [rotate_left_right oplug option_map]. split; [reflexivity|]. split.
              ** apply bal_plug; cbn [bal depth].
                 --- repeat split; auto; destruct (Z.eqb_spec cb 1), (Z.eqb_spec cb (-1)); lia.
                 --- match goal with H : pbal q ?a |- pbal q ?b => replace b with a by lia end. assumption.
              ** inord.
           ++ dpos. assert (tb = -1) by lia.
              eexists. cbn [rotate_right oplug option_map]. split; [reflexivity|].
              destruct (Z.eqb_spec tb (-1)); [|lia]. split.
              ** apply bal_plug; cbn [bal depth].
                 --- repeat split; auto; lia.
                 --- match goal with H : pbal q ?a |- pbal q ?b => replace b with a by lia end. assumption.
              ** inord.
        -- assert (b = 0) by lia.
           destruct (IH (Node t x (-1) r) (h + 1)) as (t' & A & B & C).
           ++ cbn [bal]. repeat split; auto; lia.
           ++ discriminate.
           ++ cbn [depth]. lia.
           ++ lia.
           ++ left. cbn. lia.
           ++ replace (h + 1) with (1 + Z.max h (depth r)) by lia. assumption.
           ++ exists t'. split; [exact A|]. split; [exact B|]. rewrite C. inord.
    + destruct Hp as (Hl & Eb & Bb & Hq). rewrite Hnl. cbn [andb].
      destruct (Z.eqb_spec b 1) as [E1|E1].
      * destruct t as [|tl tx tb tr]; [congruence|]. cbn [balance] in *.
        cbn [bal depth] in Ht, Hd. destruct Ht as (Htl & Htr & Etb & Btb).
        destruct (Z.eqb_spec tb (-1)) as [E3|E3].
        -- destruct tl as [|cl cx cb cr]; [cbn [depth] in *; dpos; lia|].
           cbn [bal depth] in Htl, Hd, Etb. destruct Htl as (Hcl & Hcr & Ecb & Bcb). dpos.
           eexists. cbn [rotate_right_left oplug option_map]. split; [reflexivity|]. split.
           ++ apply bal_plug; cbn [bal depth].
              --- repeat split; auto; destruct (Z.eqb_spec cb 1), (Z.eqb_spec cb (-1)); lia.
              --- match goal with H : pbal q ?a |- pbal q ?b => replace b with a by lia end. assumption.
           ++ inord.
        -- dpos. assert (tb = 1) by lia.
           eexists. cbn [rotate_left oplug option_map]. split; [reflexivity|].
           destruct (Z.eqb_spec tb 1); [|lia]. split.
           ++ apply bal_plug; cbn [bal depth].
              --- repeat split; auto; lia.
              --- match goal with H : pbal q ?a |- pbal q ?b => replace b with a by lia end. assumption.
           ++ inord.
      * destruct (Z.eqb_spec b (-1)) as [E2|E2].
        -- exists (plug (Node l x 0 t) q). split; [reflexivity|]. split.
           ++ apply bal_plug; cbn [bal depth]; [repeat split; auto; lia|].
              now replace (1 + Z.max (depth l) (depth t)) with (1 + Z.max (depth l) h) by lia.
           ++ inord.
        -- assert (b = 0) by lia.
           destruct (IH (Node l x 1 t) (h + 1)) as (t' & A & B & C).
           ++ cbn [bal]. repeat split; auto; lia.
           ++ discriminate.
           ++ cbn [depth]. lia.
           ++ lia.
           ++ left. cbn. lia.
           ++ replace (h + 1) with (1 + Z.max (depth l) h) by lia. assumption.
           ++ exists t'. split; [exact A|]. split; [exact B|]. rewrite C. inord.
Qed.

(* ---- deletion ---- *)

Lemma delete_fixup_ok : forall p t,
  bal t -> pbal p (depth t + 1) ->
  exists t', delete_fixup t p = Some t' /\ bal t' /\ inorder t' = lefts p ++ inorder t ++ rights p.
Proof.
  induction p as [|f q IH]; intros t Ht Hp.
  - exists t. cbn. rewrite app_nil_r. auto.
  - destruct f as [x b r|l x b]; cbn [delete_fixup fbal join is_left is_right pbal lefts rights] in *.
    + destruct Hp as (Hr & Eb & Bb & Hq). dpos.
      destruct (Z.eqb_spec b 0) as [E0|E0].
      * assert (Hrl : is_leaf r = false) by (destruct r; [cbn [depth] in *; lia|reflexivity]).
        rewrite Hrl, andb_false_r.
        exists (plug (Node t x 1 r) q). split; [reflexivity|]. split; [|inord].
        apply bal_plug; cbn [bal depth]; [repeat split; auto; lia|].
        match goal with H : pbal q ?a |- pbal q ?b => replace b with a by lia end. assumption.
      * destruct (Z.eqb_spec b (-1)) as [E1|E1].
        -- destruct (IH (Node t x 0 r)) as (t' & A & B & C).
           ++ cbn [bal]. repeat split; auto; lia.
           ++ cbn [depth]. match goal with H : pbal q ?a |- pbal q ?b => replace b with a by lia end. assumption.
           ++ exists t'. split; [exact A|]. split; [exact B|]. rewrite C. inord.
        -- assert (b = 1) by lia.
           assert (Hrl : is_leaf r = false) by (destruct r; [cbn [depth] in *; lia|reflexivity]).
           rewrite Hrl, andb_false_r.
           destruct r as [|rl rx rb rr]; [discriminate|]. cbn [balance].
           cbn [bal depth] in Hr, Eb, Hq. destruct Hr as (Hrl' & Hrr & Erb & Brb).
           destruct (Z.eqb_spec rb (-1)) as [E2|E2].
           ++ destruct rl as [|cl cx cb cr]; [cbn [depth] in *; dpos; lia|].
              cbn [bal depth] in Hrl', Erb, Eb, Hq. destruct Hrl' as (Hcl & Hcr & Ecb & Bcb). dpos.
              cbn [rotate_right_left balance].
              destruct (IH (Node (Node t x (if cb =? 1 then -1 else 0) cl) cx 0
                             (Node cr rx (if cb =? -1 then 1 else 0) rr))) as (t' & A & B & C).
              ** cbn [bal depth]. repeat split; auto; destruct (Z.eqb_spec cb 1), (Z.eqb_spec cb (-1)); lia.
              ** cbn [depth]. match goal with H : pbal q ?a |- pbal q ?b => replace b with a by lia end. assumption.
              ** exists t'. split; [exact A|]. split; [exact B|]. rewrite C. inord.
           ++ cbn [rotate_left]. dpos. destruct (Z.eqb_spec rb 1) as [E3|E3]; cbn [balance].
              ** change (0 =? -1) with false.
                 destruct (IH (Node (Node t x 0 rl) rx 0 rr)) as (t' & A & B & C).
                 --- cbn [bal depth]. repeat split; auto; lia.
                 --- cbn [depth]. match goal with H : pbal q ?a |- pbal q ?b => replace b with a by lia end. assumption.
                 --- exists t'. split; [exact A|]. split; [exact B|]. rewrite C. inord.
              ** change (-1 =? -1) with true. cbv iota.
                 eexists. split; [reflexivity|]. split; [|inord].
                 apply bal_plug; cbn [bal depth]; [repeat split; auto; lia|].
                 match goal with H : pbal q ?a |- pbal q ?b => replace b with a by lia end. assumption.
    + destruct Hp as (Hl & Eb & Bb & Hq). dpos.
      destruct (Z.eqb_spec b 0) as [E0|E0].
      * exists (plug (Node l x (-1) t) q). split; [reflexivity|]. split; [|inord].
        apply bal_plug; cbn [bal depth]; [repeat split; auto; lia|].
        match goal with H : pbal q ?a |- pbal q ?b => replace b with a by lia end. assumption.
      * destruct (Z.eqb_spec b (-1)) as [E1|E1].
        -- assert (Hll : is_leaf l = false) by (destruct l; [cbn [depth] in *; lia|reflexivity]).
           rewrite Hll, andb_false_r.
           destruct l as [|ll lx lb lr]; [discriminate|]. cbn [balance].
           cbn [bal depth] in Hl, Eb, Hq. destruct Hl as (Hll' & Hlr & Elb & Blb).
           destruct (Z.eqb_spec lb 1) as [E2|E2].
           ++ destruct lr as [|cl cx cb cr]; [cbn [depth] in *; dpos; lia|].
              cbn [bal depth] in Hlr, Elb, Eb, Hq. destruct Hlr as (Hcl & Hcr & Ecb & Bcb). dpos.
              cbn [rotate_left_right balance].
              destruct (IH (Node (Node ll lx (if cb =? 1 then -1 else 0) cl) cx 0
                             (Node cr x (if cb =? -1 then 1 else 0) t))) as (t' & A & B & C).
              ** cbn [bal depth]. repeat split; auto; destruct (Z.eqb_spec cb 1), (Z.eqb_spec cb (-1)); lia.
              ** cbn [depth]. match goal with H : pbal q ?a |- pbal q ?b => replace b with a by lia end. assumption.
              ** exists t'. split; [exact A|]. split; [exact B|]. rewrite C. inord.
           ++ cbn [rotate_right]. dpos. destruct (Z.eqb_spec lb (-1)) as [E3|E3]; cbn [balance].
              ** change (0 =? 1) with false.
                 destruct (IH (Node ll lx 0 (Node lr x 0 t))) as (t' & A & B & C).
                 --- cbn [bal depth]. repeat split; auto; lia.
                 --- cbn [depth]. match goal with H : pbal q ?a |- pbal q ?b => replace b with a by lia end. assumption.
                 --- exists t'. split; [exact A|]. split; [exact B|]. rewrite C. inord.
              ** change (1 =? 1) with true. cbv iota.
                 eexists. split; [reflexivity|]. split; [|inord].
                 apply bal_plug; cbn [bal depth]; [repeat split; auto; lia|].
                 match goal with H : pbal q ?a |- pbal q ?b => replace b with a by lia end. assumption.
        -- assert (b = 1) by lia.
           destruct (IH (Node l x 0 t)) as (t' & A & B & C).
           ++ cbn [bal]. repeat split; auto; lia.
           ++ cbn [depth]. match goal with H : pbal q ?a |- pbal q ?b => replace b with a by lia end. assumption.
           ++ exists t'. split; [exact A|]. split; [exact B|]. rewrite C. inord.
Qed.

(* ---- neighbours ---- *)
Definition last_error (l : list anode) : option anode := hd_error (rev l).
Lemma hd_app : forall (l r : list anode), hd_error (l ++ r) = match hd_error l with Some x => Some x | None => hd_error r end.
Proof. intros [|x l] r; reflexivity. Qed.
Lemma last_app : forall (l r : list anode), last_error (l ++ r) = match last_error r with Some x => Some x | None => last_error l end.
Proof. intros l r. unfold last_error. now rewrite rev_app_distr, hd_app. Qed.
Lemma last_cons : forall x (l : list anode), last_error (x :: l) = match last_error l with Some y => Some y | None => Some x end.
Proof. intros x l. change (x :: l) with ([x] ++ l). apply last_app. Qed.

Lemma minimum_hd : forall t, minimum t = hd_error (inorder t).
Proof.
  induction t as [|l IHl x b r IHr]; auto. cbn [minimum inorder]. rewrite hd_app, <- IHl.
  now destruct (minimum l).
Qed.
Lemma maximum_last : forall t, maximum t = last_error (inorder t).
Proof.
  induction t as [|l IHl x b r IHr]; auto. cbn [maximum inorder].
  rewrite last_app, last_cons, <- IHr. now destruct (maximum r).
Qed.
Lemma up_succ_hd : forall p, up_succ p = hd_error (rights p).
Proof. induction p as [|[x b r|l x b] q IH]; auto. Qed.
Lemma up_pred_last : forall p, up_pred p = last_error (lefts p).
Proof.
  induction p as [|[x b r|l x b] q IH]; auto. cbn [up_pred lefts].
  rewrite !last_app. reflexivity.
Qed.
Lemma successor_hd : forall r p, successor_at r p = hd_error (inorder r ++ rights p).
Proof.
  intros [|l x b r] p.
  - apply up_succ_hd.
  - unfold successor_at. rewrite minimum_hd, hd_app.
    cbn [inorder]. rewrite hd_app. now destruct (hd_error (inorder l)).
Qed.
Lemma predecessor_last : forall l p, predecessor_at l p = last_error (lefts p ++ inorder l).
Proof.
  intros [|l x b r] p.
  - cbn [predecessor_at inorder]. rewrite app_nil_r. apply up_pred_last.
  - unfold predecessor_at. rewrite maximum_last, last_app.
    cbn [inorder]. rewrite last_app, last_cons. now destruct (last_error (inorder r)).
Qed.

(* ---- following a pointer ---- *)
Lemma locate_ok : forall t i p l x b r q, locate t i p = Some (l, x, b, r, q) ->
  nd_id x = i /\ plug (Node l x b r) q = plug t p.
Proof.
  induction t as [|tl IHl tx tb tr IHr]; intros i p l x b r q H; cbn [locate] in H; [discriminate|].
  destruct (Z.eqb_spec (nd_id tx) i) as [E|E].
  - injection H as <- <- <- <- <-. auto.
  - destruct (locate tl i (FL tx tb tr :: p)) as [u|] eqn:EL.
    + injection H as ->. now apply IHl in EL.
    + now apply IHr in H.
Qed.

Lemma locate_some : forall t i p, In i (map nd_id (inorder t)) -> locate t i p <> None.
Proof.
  induction t as [|tl IHl tx tb tr IHr]; intros i p H; cbn [inorder map locate] in *; [easy|].
  destruct (Z.eqb_spec (nd_id tx) i); [easy|].
  rewrite map_app in H. apply in_app_iff in H. cbn [map] in H.
  destruct (locate tl i (FL tx tb tr :: p)) eqn:EL; [easy|].
  destruct H as [H|[H|H]].
  - now apply (IHl i (FL tx tb tr :: p)) in H.
  - easy.
  - now apply IHr.
Qed.

Lemma nodup_split : forall (A A' B B' : list anode) x y, NoDup (map nd_id (A ++ x :: B)) ->
  A ++ x :: B = A' ++ y :: B' -> nd_id x = nd_id y -> A = A' /\ x = y /\ B = B'.
Proof.
  induction A as [|a A IH]; intros [|a' A'] B B' x y N E Hi; cbn [app map] in *.
  - injection E as -> ->. auto.
  - injection E as <- ->. exfalso. inversion N as [|? ? H1 H2]; subst. apply H1.
    rewrite Hi. apply in_map, in_or_app. right. now left.
  - injection E as -> <-. exfalso. inversion N as [|? ? H1 H2]; subst. apply H1.
    rewrite <- Hi. apply in_map, in_or_app. right. now left.
  - injection E as <- E. inversion N; subst. destruct (IH A' B B' x y) as (-> & -> & ->); auto.
Qed.

Lemma locate_at : forall t A x B, NoDup (map nd_id (inorder t)) -> inorder t = A ++ x :: B ->
  exists l b r p, locate t (nd_id x) [] = Some (l, x, b, r, p) /\ t = plug (Node l x b r) p /\
    A = lefts p ++ inorder l /\ B = inorder r ++ rights p.
Proof.
  intros t A x B N E. destruct (locate t (nd_id x) []) as [[[[[l y] b] r] p]|] eqn:L.
  - apply locate_ok in L. destruct L as (Hi & Hp). cbn [plug] in Hp.
    assert (E2 : inorder t = (lefts p ++ inorder l) ++ y :: inorder r ++ rights p).
    { rewrite <- Hp, inorder_plug. cbn [inorder]. now rewrite <- !app_assoc. }
    rewrite E in E2, N.
    destruct (nodup_split _ _ _ _ _ _ N E2 (eq_sym Hi)) as (-> & -> & ->).
    exists l, b, r, p. auto.
  - exfalso. revert L. apply locate_some. rewrite E. apply in_map, in_or_app. right. now left.
Qed.

(* ---- removing a node ---- *)
Lemma descend_min_ok : forall l x b r p y yb yr q, descend_min l x b r p = (y, yb, yr, q) ->
  plug (Node Leaf y yb yr) q = plug (Node l x b r) p /\ lefts q = lefts p.
Proof.
  induction l as [|l' IH x' b' r' _]; intros x b r p y yb yr q H; cbn [descend_min] in H.
  - injection H as <- <- <- <-. auto.
  - apply IH in H. destruct H as (A & B). cbn [plug lefts] in *. auto.
Qed.

Lemma avl_delete_ok : forall l z b r p, bal (plug (Node l z b r) p) ->
  exists t', avl_delete l z b r p = Some t' /\ bal t' /\
    inorder t' = lefts p ++ inorder l ++ inorder r ++ rights p.
Proof.
  intros l z b r p Hb.
  pose proof (plug_bal _ _ Hb) as (Hn & Hp). cbn [bal depth] in Hn, Hp. destruct Hn as (Hl & Hr & Eb & Bb).
  pose proof (depth_nonneg l). pose proof (depth_nonneg r).
  unfold avl_delete. destruct l as [|ll lx lb lr].
  - cbn [depth] in *. cbn [inorder app]. apply delete_fixup_ok; auto.
    now replace (depth r + 1) with (1 + Z.max 0 (depth r)) by lia.
  - destruct r as [|rl rx rb rr].
    + set (l := Node ll lx lb lr) in *. cbn [inorder app] in *.
      destruct (delete_fixup_ok p l) as (t' & A & B & C); auto.
      * replace (depth l + 1) with (1 + Z.max (depth l) (depth (@Leaf K))) by (cbn [depth]; lia). auto.
      * exists t'. rewrite C. auto.
    + set (l := Node ll lx lb lr) in *.
      destruct (descend_min rl rx rb rr []) as [[[y yb] yr] q] eqn:D.
      apply descend_min_ok in D. cbn [plug lefts] in D. destruct D as (D & DL).
      assert (Hb2 : bal (plug (Node Leaf y yb yr) (q ++ FR l y b :: p))).
      { rewrite plug_app. cbn [plug]. rewrite D. apply bal_plug; [cbn [bal]; auto|exact Hp]. }
      apply plug_bal in Hb2. cbn [bal depth] in Hb2. destruct Hb2 as ((_ & Hyr & Eyb & Byb) & Hq).
      pose proof (depth_nonneg yr).
      destruct (delete_fixup_ok (q ++ FR l y b :: p) yr) as (t' & A & B & C); auto.
      * now replace (depth yr + 1) with (1 + Z.max 0 (depth yr)) by lia.
      * exists t'. split; [exact A|]. split; [exact B|]. rewrite C, lefts_app, rights_app, DL.
        cbn [lefts rights]. rewrite app_nil_r.
        assert (E : inorder (Node rl rx rb rr) = y :: inorder yr ++ rights q).
        { rewrite <- D, inorder_plug, DL. reflexivity. }
        rewrite E. cbn [app]. now rewrite <- !app_assoc.
Qed.

(* ---- the index ---- *)
Definition ids (l : list anode) : list Z := map nd_id l.
Record avl_inv (a : avl K) : Prop := {
  v_bal : bal (a_root a);
  v_size : a_size a = zlen (inorder (a_root a));
  v_nodup : NoDup (ids (inorder (a_root a)));
  v_min : a_min a = option_map nd_id (hd_error (inorder (a_root a)));
  v_max : a_max a = option_map nd_id (last_error (inorder (a_root a))) }.
Definition elems (a : avl K) : list anode := inorder (a_root a).

Lemma empty_inv : avl_inv avl_empty.
Proof. constructor; cbn; auto. constructor. Qed.

Lemma zlen_pos : forall (l : list anode), (0 <? zlen l) = true <-> l <> [].
Proof.
  intros [|x l]; [cbn; intuition congruence|]. rewrite zlen_cons.
  pose proof (zlen_nonneg _ l). split; [discriminate|]. intros _. apply Z.ltb_lt. lia.
Qed.

Lemma bal_leaf_search : forall p, bal (plug Leaf p) -> pbal p 0.
Proof. intros p H. apply plug_bal in H. apply H. Qed.

Lemma hd_none : forall (l : list anode), hd_error l = None -> l = [].
Proof. now intros [|x l]. Qed.
Lemma last_none : forall (l : list anode), last_error l = None -> l = [].
Proof.
  intros l H. apply hd_none in H. apply (f_equal (@rev _)) in H. now rewrite rev_involutive in H.
Qed.
Lemma last_split : forall (l : list anode) x, last_error l = Some x -> exists A, l = A ++ [x].
Proof.
  intros l x H. unfold last_error in H. destruct (rev l) as [|y r] eqn:E; [discriminate|].
  injection H as ->. exists (rev r). apply (f_equal (@rev _)) in E. rewrite rev_involutive in E. exact E.
Qed.

(* inserting a new node z between A and B *)
Lemma insert_at_ok : forall a z p, avl_inv a -> a_root a <> Leaf ->
  plug Leaf p = a_root a -> ~ In (nd_id z) (ids (elems a)) ->
  exists a', insert_at a z p = Some a' /\ avl_inv a' /\ elems a' = lefts p ++ z :: rights p.
Proof.
  intros a z p V Hne Hp Hz. destruct V as [Vb Vs Vn Vmn Vmx]. unfold elems in *.
  assert (EI : inorder (a_root a) = lefts p ++ rights p) by (rewrite <- Hp, inorder_plug; reflexivity).
  destruct (insert_fixup_ok p (Node Leaf z 0 Leaf) 0) as (t & A & B & C).
  - cbn. repeat split; lia.
  - discriminate.
  - reflexivity.
  - lia.
  - now right.
  - apply bal_leaf_search. now rewrite Hp.
  - cbn [inorder app] in C.
    assert (N : NoDup (ids (inorder t))).
    { rewrite C. unfold ids in *. rewrite map_app. cbn [map]. apply NoDup_Add with (a := nd_id z) (l := map nd_id (lefts p ++ rights p)).
      - rewrite map_app. apply Add_app.
      - rewrite <- EI. auto. }
    assert (NE : inorder (a_root a) <> []).
    { destruct (a_root a) as [|l x b r]; [congruence|]. cbn [inorder]. now destruct (inorder l). }
    unfold insert_at. rewrite A.
    assert (F1 : fix_min t (a_min a) = Some (option_map nd_id (hd_error (inorder t)))).
    { unfold fix_min. rewrite Vmn. destruct (hd_error (inorder (a_root a))) as [m|] eqn:Hm; [|now apply hd_none in Hm].
      cbn [option_map].
      destruct (inorder (a_root a)) as [|m' R] eqn:ER; [discriminate|]. injection Hm as ->.
      assert (X : exists A' B', inorder t = A' ++ m :: B' /\ (A' = [] \/ A' = [z])).
      { rewrite C. destruct (lefts p) as [|u L]; cbn [app] in EI.
        - exists [z], R. rewrite <- EI. auto.
        - injection EI as -> _. exists [], (L ++ z :: rights p). auto. }
      destruct X as (A' & B' & EX & HA).
      destruct (locate_at t A' m B' N EX) as (l & b & r & q & L1 & L2 & L3 & L4).
      rewrite L1, predecessor_last, <- L3. rewrite EX. destruct HA as [->| ->]; reflexivity. }
    assert (F2 : fix_max t (a_max a) = Some (option_map nd_id (last_error (inorder t)))).
    { unfold fix_max. rewrite Vmx. destruct (last_error (inorder (a_root a))) as [m|] eqn:Hm; [|now apply last_none in Hm].
      cbn [option_map]. destruct (last_split _ _ Hm) as (R & ER).
      assert (X : exists A' B', inorder t = A' ++ m :: B' /\ (B' = [] \/ B' = [z])).
      { rewrite C. rewrite EI in ER. destruct (rights p) as [|u L] eqn:Er.
        - rewrite app_nil_r in ER. exists R, [z]. rewrite ER, <- app_assoc. auto.
        - destruct (exists_last (l := u :: L)) as (L' & v & EL); [discriminate|].
          rewrite EL, app_assoc in ER. apply app_inj_tail in ER. destruct ER as (_ & ->).
          exists (lefts p ++ z :: L'), []. rewrite EL, <- app_assoc. auto. }
      destruct X as (A' & B' & EX & HB).
      destruct (locate_at t A' m B' N EX) as (l & b & r & q & L1 & L2 & L3 & L4).
      rewrite L1, successor_hd, <- L4. rewrite EX, last_app, last_cons.
      destruct HB as [->| ->]; reflexivity. }
    rewrite F1, F2. eexists. split; [reflexivity|]. split; [|exact C].
    constructor; cbn [a_root a_size a_min a_max]; auto.
    rewrite Vs, EI, C, !zlen_app, zlen_cons. lia.
Qed.

Lemma root_inv : forall z, avl_inv (insert_root z).
Proof. intros z. constructor; cbn; auto; try lia. repeat constructor. easy. Qed.

Lemma remove_ok : forall a A x B, avl_inv a -> elems a = A ++ x :: B ->
  exists a', avl_remove a (nd_id x) = Some a' /\ avl_inv a' /\ elems a' = A ++ B.
Proof.
  intros a A x B V E. destruct V as [Vb Vs Vn Vmn Vmx]. unfold elems in *.
  destruct (locate_at _ _ _ _ Vn E) as (l & b & r & p & L1 & L2 & L3 & L4).
  unfold avl_remove. rewrite L1.
  destruct (Z.ltb_spec 1 (a_size a)) as [Hs|Hs].
  - rewrite L2 in Vb. destruct (avl_delete_ok _ _ _ _ _ Vb) as (t & D1 & D2 & D3).
    assert (EI : inorder t = A ++ B) by (rewrite D3, L3, L4, <- app_assoc; reflexivity).
    rewrite D1. cbn [option_map]. eexists. split; [reflexivity|]. split; [|exact EI].
    unfold ids in *. rewrite E, map_app in Vn. cbn [map] in Vn.
    constructor; cbn [a_root a_size a_min a_max]; auto.
    + rewrite Vs, E, EI, !zlen_app, zlen_cons. lia.
    + rewrite EI. unfold ids. rewrite map_app. now apply NoDup_remove_1 in Vn.
    + rewrite Vmn, E, EI, successor_hd, <- L4. destruct A as [|u A]; cbn [app hd_error option_map].
      * now rewrite Z.eqb_refl.
      * destruct (Z.eqb_spec (nd_id u) (nd_id x)) as [Eu|_]; [|reflexivity].
        exfalso. cbn [map app] in Vn. inversion Vn as [|? ? H1 H2]; subst. apply H1.
        rewrite Eu. apply in_or_app. right. now left.
    + rewrite Vmx, E, EI, predecessor_last, <- L3, !last_app, last_cons.
      destruct (last_error B) as [v|] eqn:Ev; cbn [option_map].
      * destruct (Z.eqb_spec (nd_id v) (nd_id x)) as [Eu|_]; [|reflexivity].
        exfalso. apply NoDup_remove_2 in Vn. apply Vn. apply in_or_app. right. rewrite <- Eu.
        apply in_map. destruct (last_split _ _ Ev) as (R & ->). apply in_or_app. right. now left.
      * now rewrite Z.eqb_refl.
  - exists avl_empty. split; [reflexivity|]. split; [apply empty_inv|].
    rewrite Vs, E, zlen_app, zlen_cons in Hs.
    pose proof (zlen_nonneg _ A). pose proof (zlen_nonneg _ B).
    assert (A = [] /\ B = []) as [-> ->].
    { split; [destruct A|destruct B]; auto; rewrite ?zlen_cons in *;
        repeat match goal with l : list anode |- _ => pose proof (zlen_nonneg _ l); revert dependent l end; intros; lia. }
    reflexivity.
Qed.

Lemma replace_ok : forall a A y B z, avl_inv a -> elems a = A ++ y :: B ->
  ~ In (nd_id z) (ids (A ++ B)) ->
  exists a', replace_exists a (nd_id y) z = Some a' /\ avl_inv a' /\ elems a' = A ++ z :: B.
Proof.
  intros a A y B z V E Hz. destruct V as [Vb Vs Vn Vmn Vmx]. unfold elems in *.
  destruct (locate_at _ _ _ _ Vn E) as (l & b & r & p & L1 & L2 & L3 & L4).
  unfold replace_exists. rewrite L1. eexists. split; [reflexivity|].
  assert (EI : inorder (plug (Node l z b r) p) = A ++ z :: B).
  { rewrite inorder_plug. cbn [inorder]. rewrite L3, L4. now rewrite <- !app_assoc. }
  split; [|exact EI]. unfold ids in *. rewrite E, map_app in Vn. cbn [map] in Vn.
  constructor; cbn [a_root a_size a_min a_max]; auto.
  - rewrite L2 in Vb. apply plug_bal in Vb. apply bal_plug; [exact (proj1 Vb)|exact (proj2 Vb)].
  - rewrite Vs, E, EI, !zlen_app, !zlen_cons. lia.
  - rewrite EI. unfold ids. rewrite map_app. cbn [map].
    apply NoDup_Add with (a := nd_id z) (l := map nd_id (A ++ B)).
    + rewrite map_app. apply Add_app.
    + split; auto. rewrite map_app. now apply NoDup_remove_1 in Vn.
  - rewrite Vmn, E, EI. destruct A as [|u A]; cbn [app hd_error option_map swap_id].
    + now rewrite Z.eqb_refl.
    + destruct (Z.eqb_spec (nd_id u) (nd_id y)) as [Eu|_]; [|reflexivity].
      exfalso. cbn [map app] in Vn. inversion Vn as [|? ? H1 H2]; subst. apply H1.
      rewrite Eu. apply in_or_app. right. now left.
  - rewrite Vmx, E, EI, !last_app, !last_cons.
    destruct (last_error B) as [v|] eqn:Ev; cbn [option_map swap_id].
    + destruct (Z.eqb_spec (nd_id v) (nd_id y)) as [Eu|_]; [|reflexivity].
      exfalso. apply NoDup_remove_2 in Vn. apply Vn. apply in_or_app. right. rewrite <- Eu.
      apply in_map. destruct (last_split _ _ Ev) as (R & ->). apply in_or_app. right. now left.
    + now rewrite Z.eqb_refl.
Qed.

(* ---- walking ---- *)
Lemma walk_from : forall B a A x, avl_inv a -> elems a = A ++ x :: B ->
  walk (S (length B)) a (Some (nd_id x)) = Some (x :: B).
Proof.
  induction B as [|y B IH]; intros a A x V E; pose proof V as [Vb Vs Vn Vmn Vmx]; unfold elems in *;
    destruct (locate_at _ _ _ _ Vn E) as (l & b & r & p & L1 & L2 & L3 & L4).
  - cbn [length walk]. unfold next_of. rewrite L1, successor_hd, <- L4. reflexivity.
  - cbn [length]. change (walk (S (S (length B))) a (Some (nd_id x))) with
      (match next_of a (nd_id x) with None => None | Some (x, nx) => option_map (cons x) (walk (S (length B)) a nx) end).
    unfold next_of. rewrite L1, successor_hd, <- L4. cbn [hd_error option_map].
    rewrite (IH a (A ++ [x]) y); auto. unfold elems. rewrite E, <- app_assoc. reflexivity.
Qed.

Lemma walk_ok : forall a, avl_inv a -> avl_walk a = Some (elems a).
Proof.
  intros a V. unfold avl_walk. rewrite (v_min _ V), (v_size _ V). fold (elems a).
  destruct (elems a) as [|x B] eqn:E; [reflexivity|].
  rewrite zlen_cons. cbn [hd_error option_map]. unfold zlen.
  replace (Z.to_nat (1 + Z.of_nat (length B))) with (S (length B)) by lia.
  apply (walk_from B a []); auto.
Qed.

Lemma rwalk_from : forall A a x B, avl_inv a -> elems a = A ++ x :: B ->
  rwalk (S (length A)) a (Some (nd_id x)) = Some (x :: rev A).
Proof.
  induction A as [|y A IH] using rev_ind; intros a x B V E; pose proof V as [Vb Vs Vn Vmn Vmx]; unfold elems in *;
    destruct (locate_at _ _ _ _ Vn E) as (l & b & r & p & L1 & L2 & L3 & L4).
  - cbn [length rwalk]. unfold prev_of. rewrite L1, predecessor_last, <- L3. reflexivity.
  - rewrite app_length. cbn [length]. replace (S (length A + 1)) with (S (S (length A))) by lia.
    change (rwalk (S (S (length A))) a (Some (nd_id x))) with
      (match prev_of a (nd_id x) with None => None | Some (x, nx) => option_map (cons x) (rwalk (S (length A)) a nx) end).
    unfold prev_of. rewrite L1, predecessor_last, <- L3, last_app. cbn [last_error rev app hd_error option_map].
    rewrite (IH a y (x :: B)); auto.
    + now rewrite rev_app_distr.
    + unfold elems. rewrite E, <- app_assoc. reflexivity.
Qed.

Lemma rwalk_ok : forall a, avl_inv a -> avl_rwalk a = Some (rev (elems a)).
Proof.
  intros a V. unfold avl_rwalk. rewrite (v_max _ V), (v_size _ V). fold (elems a).
  destruct (last_error (elems a)) as [x|] eqn:E.
  - destruct (last_split _ _ E) as (A & EA). rewrite EA, rev_app_distr. cbn [rev app option_map].
    rewrite zlen_app. unfold zlen. cbn [length].
    replace (Z.to_nat (Z.of_nat (length A) + Z.of_nat 1)) with (S (length A)) by lia.
    apply (rwalk_from A a x []); auto.
  - apply last_none in E. rewrite E. reflexivity.
Qed.

(* ---- logarithmic depth ---- *)
Lemma bal_size : forall t, bal t -> 2 ^ depth t <= (zlen (inorder t) + 1) * (zlen (inorder t) + 1).
Proof.
  assert (H : forall n t, depth t <= Z.of_nat n -> bal t ->
    2 ^ depth t <= (zlen (inorder t) + 1) * (zlen (inorder t) + 1)).
  { induction n as [|n IH]; intros t Hn Hb.
    - pose proof (depth_nonneg t). assert (E : depth t = 0) by lia. apply depth_leaf in E. subst t. cbn. lia.
    - destruct t as [|l x b r]; [cbn; lia|].
      cbn [bal depth inorder] in *. destruct Hb as (Hl & Hr & Eb & Bb).
      pose proof (depth_nonneg l). pose proof (depth_nonneg r).
      assert (Il := IH l ltac:(lia) Hl). assert (Ir := IH r ltac:(lia) Hr).
      rewrite zlen_app, zlen_cons.
      set (u := zlen (inorder l)) in *. set (v := zlen (inorder r)) in *.
      assert (0 <= u) by apply zlen_nonneg. assert (0 <= v) by apply zlen_nonneg.
      rewrite Z.pow_add_r by lia. change (2 ^ 1) with 2.
      set (m := Z.min (depth l) (depth r)).
      assert (Hm : 2 ^ m <= (u + 1) * (u + 1) /\ 2 ^ m <= (v + 1) * (v + 1)).
      { split; (eapply Z.le_trans; [apply Z.pow_le_mono_r; [lia|]|eassumption]); lia. }
      assert (HM : 2 ^ Z.max (depth l) (depth r) <= 2 * 2 ^ m).
      { replace (2 * 2 ^ m) with (2 ^ (1 + m)) by (rewrite Z.pow_add_r by lia; reflexivity).
        apply Z.pow_le_mono_r; lia. }
      nia. }
  intros t. apply (H (Z.to_nat (depth t))). pose proof (depth_nonneg t). lia.
Qed.
End P.

(* ---- searching, for any comparison ---- *)
Section S.
Variable K : Type.
Variable cmp : K -> K -> Z.
Notation anode := (anode K).

Lemma search_leaf_ok : forall t k p, exists A B,
  inorder K t = A ++ B /\ plug Leaf (search_leaf K cmp t k p) = plug t p /\
  lefts K (search_leaf K cmp t k p) = lefts K p ++ A /\ rights K (search_leaf K cmp t k p) = B ++ rights K p.
Proof.
  induction t as [|l IHl x b r IHr]; intros k p; cbn [search_leaf inorder].
  - exists [], []. repeat split; now rewrite ?app_nil_r.
  - destruct (cmp (nd_key x) k <? 0).
    + destruct (IHl k (FL x b r :: p)) as (A & B & E1 & E2 & E3 & E4).
      exists A, (B ++ x :: inorder K r). cbn [plug lefts rights] in *.
      rewrite E1, E2, E3, E4, <- !app_assoc. auto.
    + destruct (IHr k (FR l x b :: p)) as (A & B & E1 & E2 & E3 & E4).
      exists (inorder K l ++ x :: A), B. cbn [plug lefts rights] in *.
      rewrite E1, E2, E3, E4, <- !app_assoc. auto.
Qed.

Lemma search_uniq_ok : forall t k p q, search_uniq K cmp t k p = Some q -> exists A B,
  inorder K t = A ++ B /\ plug Leaf q = plug t p /\
  lefts K q = lefts K p ++ A /\ rights K q = B ++ rights K p.
Proof.
  induction t as [|l IHl x b r IHr]; intros k p q H; cbn [search_uniq inorder] in *.
  - injection H as <-. exists [], []. repeat split; now rewrite ?app_nil_r.
  - destruct (0 <? cmp (nd_key x) k).
    + destruct (IHr _ _ _ H) as (A & B & E1 & E2 & E3 & E4).
      exists (inorder K l ++ x :: A), B. cbn [plug lefts rights] in *.
      rewrite E1, E2, E3, E4, <- !app_assoc. auto.
    + destruct (cmp (nd_key x) k <? 0); [|discriminate].
      destruct (IHl _ _ _ H) as (A & B & E1 & E2 & E3 & E4).
      exists A, (B ++ x :: inorder K r). cbn [plug lefts rights] in *.
      rewrite E1, E2, E3, E4, <- !app_assoc. auto.
Qed.

Lemma root_ne : forall a, avl_inv K a -> (0 <? a_size a) = true -> a_root a <> Leaf.
Proof. intros a V H E. rewrite (v_size _ _ V), E in H. discriminate. Qed.

Lemma insert_ok : forall a z, avl_inv K a -> ~ In (nd_id z) (ids K (elems K a)) ->
  exists a' A B, avl_insert K cmp a z = Some a' /\ avl_inv K a' /\
    elems K a = A ++ B /\ elems K a' = A ++ z :: B /\
    (0 <? a_size a = true -> A = lefts K (search_leaf K cmp (a_root a) (nd_key z) [])
       /\ B = rights K (search_leaf K cmp (a_root a) (nd_key z) [])).
Proof.
  intros a z V Hz. unfold avl_insert. destruct (0 <? a_size a) eqn:Es.
  - destruct (search_leaf_ok (a_root a) (nd_key z) []) as (A & B & E1 & E2 & E3 & E4).
    cbn [lefts rights app] in *. rewrite app_nil_r in E4.
    destruct (insert_at_ok K a z (search_leaf K cmp (a_root a) (nd_key z) [])) as (a' & F1 & F2 & F3); auto.
    + now apply root_ne.
    + exists a', A, B. rewrite F3, E3, E4. auto 6.
  - assert (E : elems K a = []).
    { unfold elems. pose proof (v_size _ _ V) as H. destruct (inorder K (a_root a)) as [|x l]; auto.
      rewrite zlen_cons in H. pose proof (zlen_nonneg _ l). apply Z.ltb_ge in Es. lia. }
    exists (insert_root z), [], []. repeat split; auto; try discriminate. apply root_inv.
    all: apply root_inv.
Qed.

(* ---- searching, for a total preorder ---- *)
Hypothesis cmp_anti : forall a b, 0 < cmp a b <-> cmp b a < 0.
Hypothesis cmp_trans : forall a b c, 0 <= cmp a b -> 0 <= cmp b c -> 0 <= cmp a c.

Definition le (x y : anode) : Prop := 0 <= cmp (nd_key x) (nd_key y).
Notation sorted := (StronglySorted le).

Lemma sorted_app : forall A B : list anode, sorted (A ++ B) <->
  sorted A /\ sorted B /\ (forall x y, In x A -> In y B -> le x y).
Proof.
  induction A as [|a A IH]; intros B; cbn [app].
  - split; [intros H; repeat split; auto; [constructor|easy]|tauto].
  - split.
    + intros H. inversion H as [|? ? H1 H2]; subst. apply IH in H1. destruct H1 as (SA & SB & SAB).
      rewrite Forall_forall in H2. split; [|split; auto].
      * constructor; auto. apply Forall_forall. intros y Hy. apply H2, in_or_app. auto.
      * intros x y [<-|Hx] Hy; auto. apply H2, in_or_app. auto.
    + intros (SA & SB & SAB). inversion SA as [|? ? H1 H2]; subst. constructor.
      * apply IH. repeat split; auto. intros x y Hx Hy. apply SAB; auto. now right.
      * apply Forall_forall. intros y Hy. apply in_app_or in Hy. rewrite Forall_forall in H2.
        destruct Hy as [Hy|Hy]; auto. apply SAB; auto. now left.
Qed.

Lemma search_leaf_sorted : forall t k p, sorted (inorder K t) ->
  forall A B, lefts K (search_leaf K cmp t k p) = lefts K p ++ A -> rights K (search_leaf K cmp t k p) = B ++ rights K p ->
  Forall (fun x => 0 <= cmp (nd_key x) k) A /\ Forall (fun x => cmp (nd_key x) k < 0) B.
Proof.
  induction t as [|l IHl x b r IHr]; intros k p S A B EA EB; cbn [search_leaf inorder] in *.
  - rewrite <- (app_nil_r (lefts K p)) in EA at 1. apply app_inv_head in EA.
    change (rights K p) with ([] ++ rights K p) in EB at 1. apply app_inv_tail in EB. subst A B. auto.
  - apply sorted_app in S. destruct S as (Sl & Sr & Slr). inversion Sr as [|? ? Sr1 Sr2]; subst.
    rewrite Forall_forall in Sr2.
    destruct (Z.ltb_spec (cmp (nd_key x) k) 0) as [Hc|Hc].
    + destruct (search_leaf_ok l k (FL x b r :: p)) as (A' & B' & E1 & E2 & E3 & E4).
      cbn [lefts rights] in E3, E4. rewrite E3 in EA. apply app_inv_head in EA. subst A'.
      rewrite E4 in EB. change (x :: inorder K r ++ rights K p) with ((x :: inorder K r) ++ rights K p) in EB.
      rewrite app_assoc in EB. apply app_inv_tail in EB. subst B.
      destruct (IHl k (FL x b r :: p) Sl A B') as (F1 & F2); [exact E3|exact E4|].
      split; auto. apply Forall_app. split; auto. constructor; auto.
      apply Forall_forall. intros y Hy. apply Sr2 in Hy. unfold le in Hy.
      destruct (Z_lt_ge_dec (cmp (nd_key y) k) 0) as [|Hg]; auto.
      pose proof (cmp_trans _ _ _ Hy (Z.ge_le _ _ Hg)). lia.
    + destruct (search_leaf_ok r k (FR l x b :: p)) as (A' & B' & E1 & E2 & E3 & E4).
      cbn [lefts rights] in E3, E4. rewrite E4 in EB. apply app_inv_tail in EB. subst B'.
      rewrite E3, <- !app_assoc in EA. apply app_inv_head in EA. subst A. cbn [app].
      destruct (IHr k (FR l x b :: p) Sr1 A' B) as (F1 & F2); [exact E3|exact E4|].
      split; auto. apply Forall_app. split.
      * apply Forall_forall. intros y Hy. apply (cmp_trans _ (nd_key x)); auto.
        apply (Slr y x); auto. now left.
      * constructor; auto.
Qed.

Lemma insert_sorted : forall a z a', avl_inv K a -> ~ In (nd_id z) (ids K (elems K a)) ->
  sorted (elems K a) -> avl_insert K cmp a z = Some a' -> sorted (elems K a').
Proof.
  intros a z a' V Hz S H. destruct (insert_ok a z V Hz) as (a2 & A & B & E1 & E2 & E3 & E4 & E5).
  rewrite E1 in H. injection H as <-. rewrite E4.
  destruct (0 <? a_size a) eqn:Es.
  - destruct (E5 eq_refl) as (EA & EB).
    destruct (search_leaf_sorted (a_root a) (nd_key z) [] S A B) as (F1 & F2).
    + cbn [lefts app]. auto.
    + cbn [rights]. rewrite app_nil_r. auto.
    + rewrite E3 in S. apply sorted_app in S. destruct S as (SA & SB & SAB).
      rewrite Forall_forall in F1, F2.
      apply sorted_app. split; auto. split.
      * constructor; auto. apply Forall_forall. intros y Hy. apply F2 in Hy.
        apply cmp_anti in Hy. unfold le. lia.
      * intros u v Hu [<-|Hv]; auto. apply F1. exact Hu.
  - assert (E : elems K a = []).
    { unfold elems. pose proof (v_size _ _ V) as Hsz. destruct (inorder K (a_root a)) as [|u l]; auto.
      rewrite zlen_cons in Hsz. pose proof (zlen_nonneg _ l). apply Z.ltb_ge in Es. lia. }
    rewrite E in E3. symmetry in E3. apply app_eq_nil in E3. destruct E3 as (-> & ->).
    cbn. repeat constructor.
Qed.

Lemma search_uniq_none : forall t k p, search_uniq K cmp t k p = None ->
  exists x, In x (inorder K t) /\ cmp (nd_key x) k = 0.
Proof.
  induction t as [|l IHl x b r IHr]; intros k p H; cbn [search_uniq inorder] in *; [discriminate|].
  destruct (Z.ltb_spec 0 (cmp (nd_key x) k)) as [H1|H1].
  - destruct (IHr _ _ H) as (y & Hy & Ey). exists y. split; auto. apply in_or_app. right. now right.
  - destruct (Z.ltb_spec (cmp (nd_key x) k) 0) as [H2|H2].
    + destruct (IHl _ _ H) as (y & Hy & Ey). exists y. split; auto. apply in_or_app. now left.
    + exists x. split; [apply in_or_app; right; now left|lia].
Qed.

Lemma le_lt : forall a b k, 0 <= cmp a b -> 0 < cmp b k -> 0 < cmp a k.
Proof.
  intros a b k H1 H2. assert (0 <= cmp a k) by (apply (cmp_trans _ b); auto; lia).
  destruct (Z.eq_dec (cmp a k) 0) as [E|E]; [|lia].
  exfalso. assert (0 <= cmp k a).
  { destruct (Z_lt_ge_dec (cmp k a) 0) as [Hl|Hl]; [|lia]. apply cmp_anti in Hl. lia. }
  assert (0 <= cmp k b) by (apply (cmp_trans _ a); auto).
  apply cmp_anti in H2. lia.
Qed.
Lemma lt_le : forall a b k, cmp a k < 0 -> 0 <= cmp a b -> cmp b k < 0.
Proof.
  intros a b k H1 H2. destruct (Z_lt_ge_dec (cmp b k) 0) as [|Hg]; auto.
  pose proof (cmp_trans _ _ _ H2 (Z.ge_le _ _ Hg)). lia.
Qed.

Lemma search_uniq_sorted : forall t k p q, sorted (inorder K t) -> search_uniq K cmp t k p = Some q ->
  forall A B, lefts K q = lefts K p ++ A -> rights K q = B ++ rights K p ->
  Forall (fun x => 0 < cmp (nd_key x) k) A /\ Forall (fun x => cmp (nd_key x) k < 0) B.
Proof.
  induction t as [|l IHl x b r IHr]; intros k p q S H A B EA EB; cbn [search_uniq inorder] in *.
  - injection H as <-. rewrite <- (app_nil_r (lefts K p)) in EA at 1. apply app_inv_head in EA.
    change (rights K p) with ([] ++ rights K p) in EB at 1. apply app_inv_tail in EB. subst A B. auto.
  - apply sorted_app in S. destruct S as (Sl & Sr & Slr). inversion Sr as [|? ? Sr1 Sr2]; subst.
    rewrite Forall_forall in Sr2.
    destruct (Z.ltb_spec 0 (cmp (nd_key x) k)) as [Hc|Hc].
    + destruct (search_uniq_ok _ _ _ _ H) as (A' & B' & E1 & E2 & E3 & E4).
      cbn [lefts rights] in E3, E4. rewrite E4 in EB. apply app_inv_tail in EB. subst B'.
      rewrite E3, <- !app_assoc in EA. apply app_inv_head in EA. subst A. cbn [app].
      destruct (IHr k _ q Sr1 H A' B) as (F1 & F2); [exact E3|exact E4|].
      split; auto. apply Forall_app. split.
      * apply Forall_forall. intros y Hy. apply (le_lt _ (nd_key x)); auto.
        apply (Slr y x); auto. now left.
      * constructor; auto.
    + destruct (Z.ltb_spec (cmp (nd_key x) k) 0) as [Hd|]; [|discriminate].
      destruct (search_uniq_ok _ _ _ _ H) as (A' & B' & E1 & E2 & E3 & E4).
      cbn [lefts rights] in E3, E4. rewrite E3 in EA. apply app_inv_head in EA. subst A'.
      rewrite E4 in EB. change (x :: inorder K r ++ rights K p) with ((x :: inorder K r) ++ rights K p) in EB.
      rewrite app_assoc in EB. apply app_inv_tail in EB. subst B.
      destruct (IHl k _ q Sl H A B') as (F1 & F2); [exact E3|exact E4|].
      split; auto. apply Forall_app. split; auto. constructor; auto.
      apply Forall_forall. intros y Hy. apply Sr2 in Hy. apply (lt_le (nd_key x)); auto.
Qed.

Lemma find_in_ok : forall t k, sorted (inorder K t) ->
  match find_in K cmp t k with
  | Some x => In x (inorder K t) /\ cmp (nd_key x) k = 0
  | None => forall x, In x (inorder K t) -> cmp (nd_key x) k <> 0
  end.
Proof.
  induction t as [|l IHl x b r IHr]; intros k S; cbn [find_in inorder] in *; [easy|].
  apply sorted_app in S. destruct S as (Sl & Sr & Slr). inversion Sr as [|? ? Sr1 Sr2]; subst.
  rewrite Forall_forall in Sr2.
  destruct (Z.ltb_spec (cmp (nd_key x) k) 0) as [H1|H1].
  - specialize (IHl k Sl). destruct (find_in K cmp l k) as [y|].
    + destruct IHl. split; auto. apply in_or_app. auto.
    + intros y Hy. apply in_app_or in Hy. destruct Hy as [Hy|[<-|Hy]]; auto; [lia|].
      apply Sr2 in Hy. pose proof (lt_le _ _ _ H1 Hy). lia.
  - destruct (Z.ltb_spec 0 (cmp (nd_key x) k)) as [H2|H2].
    + specialize (IHr k Sr1). destruct (find_in K cmp r k) as [y|].
      * destruct IHr. split; auto. apply in_or_app. right. now right.
      * intros y Hy. apply in_app_or in Hy. destruct Hy as [Hy|[<-|Hy]]; auto; [|lia].
        assert (Hle : 0 <= cmp (nd_key y) (nd_key x)) by (apply (Slr y x); auto; now left).
        pose proof (le_lt _ _ _ Hle H2). lia.
    + split; [apply in_or_app; right; now left|lia].
Qed.

Lemma find_first_app : forall (f : anode -> bool) A B, find f (A ++ B) = match find f A with Some x => Some x | None => find f B end.
Proof. induction A as [|a A IH]; intros B; cbn [app find]; auto. destruct (f a); auto. Qed.
Lemma find_none_all : forall (f : anode -> bool) A, (forall x, In x A -> f x = false) -> find f A = None.
Proof.
  induction A as [|a A IH]; intros H; cbn [find]; auto. rewrite H by now left. apply IH. intros; apply H. now right.
Qed.

Lemma lower_bound_ok : forall t y k, sorted (inorder K t) ->
  lower_bound K cmp t y k =
  match find (fun x => negb (0 <? cmp (nd_key x) k)) (inorder K t) with Some x => Some x | None => y end.
Proof.
  induction t as [|l IHl x b r IHr]; intros y k S; cbn [lower_bound inorder] in *; [reflexivity|].
  apply sorted_app in S. destruct S as (Sl & Sr & Slr). inversion Sr as [|? ? Sr1 Sr2]; subst.
  rewrite find_first_app. destruct (Z.ltb_spec 0 (cmp (nd_key x) k)) as [H1|H1].
  - rewrite find_none_all.
    + cbn [find]. destruct (Z.ltb_spec 0 (cmp (nd_key x) k)); [|lia]. cbn [negb]. now apply IHr.
    + intros u Hu. apply negb_false_iff, Z.ltb_lt. apply (le_lt _ (nd_key x)); auto.
      apply (Slr u x); auto. now left.
  - rewrite IHl by auto. cbn [find]. destruct (Z.ltb_spec 0 (cmp (nd_key x) k)); [lia|]. cbn [negb].
    now destruct (find _ (inorder K l)).
Qed.

Lemma upper_bound_ok : forall t y k, sorted (inorder K t) ->
  upper_bound K cmp t y k =
  match find (fun x => 0 <? cmp k (nd_key x)) (inorder K t) with Some x => Some x | None => y end.
Proof.
  induction t as [|l IHl x b r IHr]; intros y k S; cbn [upper_bound inorder] in *; [reflexivity|].
  apply sorted_app in S. destruct S as (Sl & Sr & Slr). inversion Sr as [|? ? Sr1 Sr2]; subst.
  rewrite find_first_app. destruct (Z.ltb_spec 0 (cmp k (nd_key x))) as [H1|H1].
  - rewrite IHl by auto. cbn [find]. destruct (Z.ltb_spec 0 (cmp k (nd_key x))); [|lia].
    now destruct (find _ (inorder K l)).
  - rewrite find_none_all.
    + cbn [find]. destruct (Z.ltb_spec 0 (cmp k (nd_key x))); [lia|]. now apply IHr.
    + intros u Hu. apply Z.ltb_ge.
      destruct (Z_lt_ge_dec 0 (cmp k (nd_key u))) as [Hlt|]; [|lia].
      assert (Hle : 0 <= cmp (nd_key u) (nd_key x)) by (apply (Slr u x); auto; now left).
      assert (0 <= cmp k (nd_key x)) by (apply (cmp_trans _ (nd_key u)); auto; lia).
      assert (E : cmp k (nd_key x) = 0) by lia.
      assert (0 <= cmp (nd_key x) k).
      { destruct (Z_lt_ge_dec (cmp (nd_key x) k) 0) as [Hl|Hl]; [|lia]. apply cmp_anti in Hl. lia. }
      assert (0 <= cmp (nd_key u) k) by (apply (cmp_trans _ (nd_key x)); auto).
      apply cmp_anti in Hlt. lia.
Qed.
End S.
