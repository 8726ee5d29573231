(* C42: writes are merged only when contiguous.
   Whatever sequence of addresses is offered, a vectored write covers exactly its members'
   ranges, one after the other, inside one segment; executing it leaves storage as if each
   member had been written by itself at its own address. *)
From Verif Require Import Base AddrModel DirtyModel FlushModel.

(* ------------------------------------------------------------------ *)
(* Specification *)

(* a single object's write *)
Record wr := mkW { w_id : Z; w_seg : lsid; w_pos : Z; w_bytes : bytes }.

Definition lsid_dec : forall a b : lsid, {a = b} + {a <> b}.
Proof. decide equality; try apply Z.eq_dec. apply (list_eq_dec Z.eq_dec). Defined.

Definition in_range (w : wr) (seg : lsid) (off : Z) : bool :=
  if lsid_dec seg (w_seg w) then (w_pos w <=? off) && (off <? w_pos w + zlen (w_bytes w)) else false.

(* storage after writing the list in order *)
Fixpoint after (d : disk) (l : list wr) {struct l} : disk :=
  match l with
  | [] => d
  | w :: r => after (fun seg off => if in_range w seg off then nth (Z.to_nat (off - w_pos w)) (w_bytes w) 0
                                    else d seg off) r
  end.

Definition same (d1 d2 : disk) : Prop := forall seg off, d1 seg off = d2 seg off.

(* the addresses follow each other without gap in segment seg from position p *)
Fixpoint chain (seg : lsid) (p : Z) (l : list laddr) {struct l} : Prop :=
  match l with
  | [] => True
  | a :: r => la_lsid a = seg /\ la_pos a = p /\ chain seg (p + la_len a) r
  end.

Definition total (l : list laddr) : Z := zsum (map la_len l).

(* offering addresses one by one, all accepted *)
Fixpoint offer (q : sqe) (l : list (laddr * Z * bool)) {struct l} : option sqe :=
  match l with
  | [] => Some q
  | (a, i, k) :: r => match sqe_append_ref q a i k with None => None | Some q1 => offer q1 r end
  end.

Definition addrs (l : list (laddr * Z * bool)) : list laddr := map (fun x => fst (fst x)) l.
Definition names (l : list (laddr * Z * bool)) : list Z := map (fun x => snd (fst x)) l.

(* ------------------------------------------------------------------ *)
(* Proof *)

Lemma lsid_eqb_eq : forall a b, lsid_eqb a b = true <-> a = b.
Proof.
  intros [a1 a2 a3 a4 a5 a6] [b1 b2 b3 b4 b5 b6]. unfold lsid_eqb.
  cbn [ls_lvid ls_lsize ls_vindex ls_vspace ls_height ls_ltype].
  rewrite !andb_true_iff, !Z.eqb_eq, bytes_eqb_eq. split.
  - intros (((((H1 & H2) & H3) & H4) & H5) & H6). congruence.
  - intro H. assert (a1 = b1 /\ a2 = b2 /\ a3 = b3 /\ a4 = b4 /\ a5 = b5 /\ a6 = b6) as H0.
    { repeat split; congruence. }
    destruct H0 as (? & ? & ? & ? & ? & ?). auto 10.
Qed.

Lemma disk_put_after : forall d l p b i, same (disk_put d l p b) (after d [mkW i l p b]).
Proof.
  intros d l p b i seg off. cbn [after]. unfold disk_put, in_range. cbn [w_seg w_pos w_bytes].
  destruct (lsid_dec seg l) as [->|N].
  - replace (lsid_eqb l l) with true by (symmetry; apply lsid_eqb_eq; reflexivity). cbn [andb].
    destruct ((p <=? off) && (off <? p + zlen b)) eqn:E; [|reflexivity].
    unfold znth. reflexivity.
  - destruct (lsid_eqb seg l) eqn:E; [apply lsid_eqb_eq in E; contradiction|]. reflexivity.
Qed.

Lemma after_same : forall l d1 d2, same d1 d2 -> same (after d1 l) (after d2 l).
Proof.
  induction l as [|w l IH]; intros d1 d2 H; [exact H|]. cbn [after]. apply IH.
  intros seg off. destruct (in_range w seg off); [reflexivity|apply H].
Qed.

Lemma after_app : forall a b d, after d (a ++ b) = after (after d a) b.
Proof. induction a as [|w a IH]; intros b d; [reflexivity|]. cbn [app after]. apply IH. Qed.

Lemma same_trans : forall a b c, same a b -> same b c -> same a c.
Proof. intros a b c H1 H2 s o. rewrite H1. apply H2. Qed.

Lemma same_refl : forall a, same a a.
Proof. intros a s o. reflexivity. Qed.

Lemma append_nonempty : forall q a i k, 0 < zlen (s_lni q) ->
  sqe_append_ref q a i k =
  if sqe_isappendable q a then
    Some (mkSqe (s_id q) (mkLaddr (la_lsid (s_laddr q)) (la_pos (s_laddr q)) (la_len (s_laddr q) + la_len a))
                (s_inode q) (s_lni q ++ [i]) (s_iov q) (s_held q))
  else None.
Proof.
  intros. unfold sqe_append_ref. destruct (sqe_isappendable q a); cbn [negb]; [|reflexivity].
  destruct (Z.eqb_spec (zlen (s_lni q)) 0); [lia|reflexivity].
Qed.

Lemma append_empty : forall q a i k, s_lni q = [] ->
  sqe_append_ref q a i k = Some (mkSqe (s_id q) a k [i] (s_iov q) (s_held q)).
Proof.
  intros q a i k H. unfold sqe_append_ref, sqe_isappendable. rewrite H. reflexivity.
Qed.

(* one address offered to a write that already has members *)
Theorem C42_accept_exact : forall q a i k, 0 < zlen (s_lni q) <= NREFS_MAX ->
  0 <= la_pos (s_laddr q) ->
  let e := la_pos (s_laddr q) + la_len (s_laddr q) + la_len a in
  sqe_append_ref q a i k <> None <->
  zlen (s_lni q) < 32 /\ la_lsid a = la_lsid (s_laddr q)
  /\ la_pos a = la_pos (s_laddr q) + la_len (s_laddr q)
  /\ la_pos a <= ls_lsize (la_lsid a)
  /\ la_len (s_laddr q) + la_len a <= 2 ^ 20
  /\ (s_inode q = true -> e <= (la_pos (s_laddr q) / 2 ^ 20 + 1) * 2 ^ 20).
Proof.
  intros q a i k Hc Hp. cbv zeta. rewrite append_nonempty by lia.
  assert (B : off_next (la_pos (s_laddr q)) COMMIT_LEN_MAX = (la_pos (s_laddr q) / 2 ^ 20 + 1) * 2 ^ 20).
  { unfold off_next, off_align, COMMIT_LEN_MAX. rewrite Z.quot_div_nonneg by lia.
    change (1024 * 1024) with (2 ^ 20). lia. }
  unfold sqe_isappendable. rewrite B. unfold laddr_isnext.
  destruct (Z.eqb_spec (zlen (s_lni q)) 0); [lia|].
  unfold NREFS_MAX in *.
  destruct (Z.eqb_spec (zlen (s_lni q)) 32); [split; [congruence|lia]|].
  destruct (lsid_eqb (la_lsid (s_laddr q)) (la_lsid a)) eqn:L.
  2:{ rewrite !andb_false_r. cbn [negb]. split; [congruence|]. intros (_ & X & _).
      rewrite X in L. assert (lsid_eqb (la_lsid (s_laddr q)) (la_lsid (s_laddr q)) = true)
        by (apply lsid_eqb_eq; reflexivity). congruence. }
  apply lsid_eqb_eq in L. rewrite <- L. rewrite Z.eqb_refl, andb_true_r. cbn [andb].
  destruct (Z.eqb_spec (la_pos a) (la_pos (s_laddr q) + la_len (s_laddr q))) as [P|P];
    [|cbn [andb negb]; split; [congruence|tauto]].
  cbn [andb]. rewrite negb_involutive. rewrite P.
  destruct (Z.ltb_spec (ls_lsize (la_lsid (s_laddr q))) (la_pos (s_laddr q) + la_len (s_laddr q)));
    [split; [congruence|lia]|].
  change COMMIT_LEN_MAX with (2 ^ 20).
  destruct (Z.ltb_spec (2 ^ 20) (la_len (s_laddr q) + la_len a)); [split; [congruence|lia]|].
  destruct (s_inode q).
  - match goal with |- context [?x <? ?y] => destruct (Z.ltb_spec x y) end; cbn [negb].
    + split; [congruence|]. intros (_ & _ & _ & _ & _ & X). specialize (X eq_refl). lia.
    + split; [|congruence]. intros _. repeat split; try reflexivity; lia.
  - split; [|congruence]. intros _. repeat split; try reflexivity; try lia; try discriminate.
Qed.

(* what a write built from accepted addresses looks like *)
Definition shape (q : sqe) (l : list (laddr * Z * bool)) : Prop :=
  match l with
  | [] => s_lni q = []
  | x :: _ =>
      s_lni q = names l /\ chain (la_lsid (s_laddr q)) (la_pos (s_laddr q)) (addrs l)
      /\ la_len (s_laddr q) = total (addrs l) /\ zlen l <= 32
      /\ s_inode q = snd x
      /\ (1 < zlen l -> total (addrs l) <= 2 ^ 20)
      /\ (1 < zlen l -> snd x = true -> 0 <= la_pos (s_laddr q) ->
          la_pos (s_laddr q) + total (addrs l) <= (la_pos (s_laddr q) / 2 ^ 20 + 1) * 2 ^ 20)
  end.

Lemma total_app : forall a b, total (a ++ b) = total a + total b.
Proof. intros. unfold total. rewrite map_app. apply zsum_app. Qed.

Lemma chain_app : forall a seg p b, chain seg p (a ++ b) <-> chain seg p a /\ chain seg (p + total a) b.
Proof.
  induction a as [|x a IH]; intros seg p b; cbn [app chain].
  - unfold total. cbn. rewrite Z.add_0_r. tauto.
  - rewrite IH. unfold total. cbn [map]. rewrite zsum_cons.
    rewrite Z.add_assoc. tauto.
Qed.

Lemma isappendable_inv : forall q a, 0 < zlen (s_lni q) -> sqe_isappendable q a = true ->
  zlen (s_lni q) <> 32 /\ la_lsid a = la_lsid (s_laddr q)
  /\ la_pos a = la_pos (s_laddr q) + la_len (s_laddr q)
  /\ la_len (s_laddr q) + la_len a <= 2 ^ 20
  /\ (s_inode q = true -> 0 <= la_pos (s_laddr q) ->
      la_pos (s_laddr q) + (la_len (s_laddr q) + la_len a) <= (la_pos (s_laddr q) / 2 ^ 20 + 1) * 2 ^ 20).
Proof.
  intros q a Hc. unfold sqe_isappendable, laddr_isnext, NREFS_MAX.
  destruct (Z.eqb_spec (zlen (s_lni q)) 0); [lia|].
  destruct (Z.eqb_spec (zlen (s_lni q)) 32); [discriminate|].
  destruct (ls_ltype (la_lsid (s_laddr q)) =? ls_ltype (la_lsid a)); [|discriminate].
  destruct (Z.eqb_spec (la_pos a) (la_pos (s_laddr q) + la_len (s_laddr q))); [|discriminate].
  destruct (ls_lsize (la_lsid a) <? la_pos (s_laddr q) + la_len (s_laddr q)); [discriminate|].
  destruct (lsid_eqb (la_lsid (s_laddr q)) (la_lsid a)) eqn:L; [|discriminate].
  apply lsid_eqb_eq in L. cbn [andb negb]. change COMMIT_LEN_MAX with (2 ^ 20).
  destruct (Z.ltb_spec (2 ^ 20) (la_len (s_laddr q) + la_len a)); [discriminate|].
  intro H1. split; [assumption|]. split; [congruence|]. split; [assumption|]. split; [lia|].
  intros Hi Hp. rewrite Hi in H1. unfold off_next, off_align in H1.
  rewrite Z.quot_div_nonneg in H1 by lia.
  match type of H1 with negb (?x <? ?y) = true => destruct (Z.ltb_spec x y); [discriminate|] end. lia.
Qed.

Lemma shape_append : forall q l a i k q', shape q l -> sqe_append_ref q a i k = Some q' ->
  shape q' (l ++ [(a, i, k)]) /\ s_id q' = s_id q /\ s_iov q' = s_iov q /\ s_held q' = s_held q.
Proof.
  intros q l a i k q' S H. destruct l as [|x l].
  - cbn in S. rewrite append_empty in H by exact S. injection H as <-. cbn [s_id s_iov s_held].
    split; [|auto]. unfold shape. cbn [app s_lni s_laddr s_inode]. unfold total, addrs, names. cbn [map fst snd chain].
    repeat split; try reflexivity; try (cbn; lia).
    all: rewrite zlen_cons, zlen_nil; lia.
  - cbn [shape] in S. destruct S as (S1 & S2 & S3 & S4 & S5 & S6 & S7).
    assert (N : zlen (s_lni q) = zlen (x :: l)). { rewrite S1. unfold names. apply zlen_map. }
    rewrite append_nonempty in H by (rewrite N, zlen_cons; pose proof (zlen_nonneg _ l); lia).
    destruct (sqe_isappendable q a) eqn:A; [|discriminate].
    apply isappendable_inv in A; [|rewrite N, zlen_cons; pose proof (zlen_nonneg _ l); lia].
    destruct A as (A1 & A2 & A3 & A4 & A5). injection H as <-. cbn [s_id s_iov s_held].
    split; [|auto].
    change ((x :: l) ++ [(a, i, k)]) with (x :: (l ++ [(a, i, k)])) at 1. unfold shape.
    change (x :: l ++ [(a, i, k)]) with ((x :: l) ++ [(a, i, k)]).
    cbn [s_lni s_laddr s_inode la_lsid la_pos la_len].
    assert (T : total (addrs ((x :: l) ++ [(a, i, k)])) = la_len (s_laddr q) + la_len a).
    { unfold addrs. rewrite map_app, total_app. fold (addrs (x :: l)). rewrite <- S3.
      unfold total. cbn. lia. }
    rewrite T. rewrite zlen_app.
    split; [unfold names; rewrite map_app; fold (names (x :: l)); rewrite S1; reflexivity|].
    split; [unfold addrs; rewrite map_app; apply chain_app; split; [exact S2|];
            fold (addrs (x :: l)); rewrite <- S3; cbn; auto|].
    split; [reflexivity|]. rewrite N in A1. change (zlen [(a, i, k)]) with 1.
    split; [lia|]. split; [exact S5|]. split; [intros; exact A4|].
    intros _ X. rewrite S5 in A5. intro Y. exact (A5 X Y).
Qed.

Lemma offer_shape : forall l q l0 q', shape q l0 -> offer q l = Some q' ->
  shape q' (l0 ++ l) /\ s_id q' = s_id q /\ s_iov q' = s_iov q.
Proof.
  induction l as [|[[a i] k] l IH]; intros q l0 q' S H; cbn [offer] in H.
  - injection H as <-. rewrite app_nil_r. auto.
  - destruct (sqe_append_ref q a i k) as [q1|] eqn:A; [|discriminate].
    destruct (shape_append _ _ _ _ _ _ S A) as (S1 & H1 & H2 & _).
    destruct (IH _ _ _ S1 H) as (S2 & H3 & H4). rewrite <- app_assoc in S2. cbn [app] in S2.
    split; [exact S2|]. split; congruence.
Qed.

(* The merged write is exactly the concatenation of its members' ranges. *)
Theorem C42_merge_exact : forall id x l q, offer (sqe_init id) (x :: l) = Some q ->
  s_lni q = names (x :: l)
  /\ la_lsid (s_laddr q) = la_lsid (fst (fst x)) /\ la_pos (s_laddr q) = la_pos (fst (fst x))
  /\ la_len (s_laddr q) = total (addrs (x :: l))
  /\ chain (la_lsid (s_laddr q)) (la_pos (s_laddr q)) (addrs (x :: l))
  /\ zlen (x :: l) <= 32
  /\ (l = [] \/ la_len (s_laddr q) <= 2 ^ 20)
  /\ (l <> [] -> snd x = true -> 0 <= la_pos (s_laddr q) -> 0 < la_len (s_laddr q) ->
      (la_pos (s_laddr q) + la_len (s_laddr q) - 1) / 2 ^ 20 = la_pos (s_laddr q) / 2 ^ 20)
  /\ (Forall (fun a => la_pos a + la_len a <= ls_lsize (la_lsid a)) (addrs (x :: l)) ->
      la_pos (s_laddr q) + la_len (s_laddr q) <= ls_lsize (la_lsid (s_laddr q))).
Proof.
  intros id x l q H. destruct (offer_shape _ _ [] _ (eq_refl : shape (sqe_init id) []) H) as (S & _).
  cbn [app] in S. unfold shape in S. destruct S as (S1 & S2 & S3 & S4 & S5 & S6 & S7).
  split; [exact S1|]. pose proof S2 as S2'. unfold addrs in S2. cbn [map chain] in S2.
  destruct S2 as (X1 & X2 & X3).
  split; [congruence|]. split; [congruence|]. split; [exact S3|]. split; [exact S2'|].
  split; [exact S4|].
  assert (M : l <> [] -> 1 < zlen (x :: l)).
  { intro Y. rewrite zlen_cons. destruct l; [congruence|]. rewrite zlen_cons. pose proof (zlen_nonneg _ l). lia. }
  split; [destruct l as [|y l]; [left; reflexivity|right; rewrite S3; apply S6, M; discriminate]|].
  split.
  - intros Y1 Y2 Y3 Y4. rewrite <- S3 in S7. specialize (S7 (M Y1) Y2 Y3). lia.
  - intro F. rewrite S3. clear - S2' F.
    assert (forall l seg p, chain seg p l -> Forall (fun a => la_pos a + la_len a <= ls_lsize (la_lsid a)) l ->
            l = [] \/ p + total l <= ls_lsize seg) as G.
    { induction l0 as [|a l0 IH]; intros seg p C F0; [left; reflexivity|]. right.
      cbn [chain] in C. destruct C as (C1 & C2 & C3). inversion F0; subst.
      unfold total. cbn [map]. rewrite zsum_cons. destruct (IH _ _ C3 H2) as [->|Y]; [cbn; lia|].
      unfold total in Y. lia. }
    destruct (G _ _ _ S2' F) as [Y|Y]; [discriminate|exact Y].
Qed.

Lemma after_ranges : forall w d l1 p b seg off,
  after d [mkW w l1 p b] seg off =
  if lsid_dec seg l1 then if (p <=? off) && (off <? p + zlen b) then nth (Z.to_nat (off - p)) b 0
                          else d seg off else d seg off.
Proof.
  intros. cbn [after]. unfold in_range. cbn [w_seg w_pos w_bytes].
  destruct (lsid_dec seg l1); reflexivity.
Qed.

Lemma after_split : forall d i j k seg p a b,
  same (after d [mkW i seg p (a ++ b)]) (after d [mkW j seg p a; mkW k seg (p + zlen a) b]).
Proof.
  intros d i j k seg p a b s o. change [mkW j seg p a; mkW k seg (p + zlen a) b] with
    ([mkW j seg p a] ++ [mkW k seg (p + zlen a) b]). rewrite after_app, !after_ranges.
  pose proof (zlen_nonneg _ a). pose proof (zlen_nonneg _ b). rewrite zlen_app.
  destruct (lsid_dec s seg); [|reflexivity].
  destruct ((p + zlen a <=? o) && (o <? p + zlen a + zlen b)) eqn:E2.
  - assert ((p <=? o) && (o <? p + (zlen a + zlen b)) = true) as -> by lia.
    rewrite app_nth2 by (unfold zlen in *; lia). f_equal. unfold zlen in *. lia.
  - destruct ((p <=? o) && (o <? p + zlen a)) eqn:E1.
    + assert ((p <=? o) && (o <? p + (zlen a + zlen b)) = true) as -> by lia.
      apply app_nth1. unfold zlen in *. lia.
    + assert ((p <=? o) && (o <? p + (zlen a + zlen b)) = false) as -> by lia. reflexivity.
Qed.

(* members' writes *)
Fixpoint member_writes (ids : list Z) (al : list laddr) (bs : list bytes) {struct ids} : list wr :=
  match ids, al, bs with
  | i :: ids', a :: al', b :: bs' => mkW i (la_lsid a) (la_pos a) b :: member_writes ids' al' bs'
  | _, _, _ => []
  end.

Lemma concat_writes : forall bs d ids al seg p i,
  length ids = length bs -> Forall2 (fun a b => la_len a = zlen b) al bs -> chain seg p al ->
  same (after d [mkW i seg p (concat bs)]) (after d (member_writes ids al bs)).
Proof.
  induction bs as [|b bs IH]; intros d ids al seg p i Hn F C.
  - destruct ids; [|discriminate]. inversion F; subst. cbn [concat member_writes after].
    intros s o. unfold in_range. cbn [w_seg w_pos w_bytes]. rewrite zlen_nil.
    destruct (lsid_dec s seg); [|reflexivity].
    assert ((p <=? o) && (o <? p + 0) = false) as -> by lia. reflexivity.
  - destruct ids as [|j ids]; [discriminate|]. inversion F as [|a b' al' bs' F1 F2]; subst.
    cbn [chain] in C. destruct C as (C1 & C2 & C3). cbn [concat member_writes].
    eapply same_trans; [apply (after_split d i j i)|].
    change (mkW j (la_lsid a) (la_pos a) b :: member_writes ids al' bs) with
      ([mkW j (la_lsid a) (la_pos a) b] ++ member_writes ids al' bs).
    change [mkW j seg p b; mkW i seg (p + zlen b) (concat bs)] with
      ([mkW j seg p b] ++ [mkW i seg (p + zlen b) (concat bs)]).
    rewrite !after_app. rewrite C1, C2. apply IH; [cbn [length] in Hn; lia|exact F2|].
    rewrite <- F1. exact C3.
Qed.

(* Executing the merged write equals executing the members' writes. *)
Theorem C42_write_unmoved : forall id x l q bs d, offer (sqe_init id) (x :: l) = Some q ->
  Forall2 (fun a b => la_len a = zlen b) (addrs (x :: l)) bs ->
  let q' := mkSqe (s_id q) (s_laddr q) (s_inode q) (s_lni q) bs (s_held q) in
  fst (write_sqe d q' None) = None
  /\ same (snd (write_sqe d q' None)) (after d (member_writes (names (x :: l)) (addrs (x :: l)) bs)).
Proof.
  intros id x l q bs d H F. cbv zeta. split; [reflexivity|].
  destruct (C42_merge_exact _ _ _ _ H) as (_ & _ & _ & _ & C & _).
  unfold write_sqe. cbn [snd s_iov s_laddr].
  eapply same_trans; [apply (disk_put_after _ _ _ _ 0)|].
  apply concat_writes; [|exact F|exact C].
  apply Forall2_length in F. unfold names, addrs in *. rewrite map_length in *. congruence.
Qed.

(* Two blocks and an adjacent third merge; a block of another segment and one that leaves
   a gap do not; inodes do not cross a 1 MiB line. *)
Definition ex_seg (v : Z) : lsid := mkLsid (zrepeat 7 16) (16 * 2 ^ 20) v 3 0 10.
Example C42_merge_exact_ex :
  let a p n := mkLaddr (ex_seg 1) p n in
  exists q, offer (sqe_init 5) [(a 65536 65536, 1, false); (a 131072 65536, 2, false); (a 196608 8192, 3, false)] = Some q
    /\ s_laddr q = mkLaddr (ex_seg 1) 65536 139264
    /\ sqe_append_ref q (a 204801 1024) 4 false = None
    /\ sqe_append_ref q (mkLaddr (ex_seg 2) 204800 1024) 4 false = None
    /\ sqe_append_ref q (a 204800 1024) 4 false <> None
    /\ offer (sqe_init 6) [(a (2 ^ 20 - 1024) 1024, 7, true); (a (2 ^ 20) 1024, 8, true)] = None
    /\ offer (sqe_init 6) [(a (2 ^ 20 - 2048) 1024, 7, true); (a (2 ^ 20 - 1024) 1024, 8, true)] <> None.
Proof.
  cbv zeta. eexists. split; [vm_compute; reflexivity|].
  repeat split; try (vm_compute; reflexivity); vm_compute; discriminate.
Qed.

Example C42_write_unmoved_ex :
  let a p n := mkLaddr (ex_seg 1) p n in
  exists q, offer (sqe_init 5) [(a 65536 2, 1, false); (a 65538 3, 2, false)] = Some q
    /\ Forall2 (fun x b => la_len x = zlen b) [a 65536 2; a 65538 3] [[10; 11]; [12; 13; 14]]
    /\ map (snd (write_sqe (fun _ _ => 0) (mkSqe (s_id q) (s_laddr q) (s_inode q) (s_lni q) [[10; 11]; [12; 13; 14]] true) None)
              (ex_seg 1)) [65535; 65536; 65537; 65538; 65540; 65541] = [0; 10; 11; 12; 14; 0].
Proof.
  cbv zeta. eexists. split; [vm_compute; reflexivity|]. split; [repeat constructor|]. vm_compute. reflexivity.
Qed.

Print Assumptions C42_accept_exact.
Print Assumptions C42_merge_exact.
Print Assumptions C42_write_unmoved.
