(* Property C27: what copying ranges between files does, alone and within sequences of calls (see
   FileHist.v for the other calls and FileCopy.v for the proofs about the code) *)
From Verif Require Import Base AddrModel FileModel FileTree FileInv FileSpec FileLeaf FileRead FileGrow FileLoops FileOps FileSeek FileDrop FileLseek FileHist FileProps FileCopy.

(* ---- calls and copies ---- *)

Inductive cop := COp (o : op) | CCopy (i_s i_d off_in off_out len : Z).
(* silofs_do_copy_file_range, lib/file.c:4675-4717, next to the calls of FileHist.v *)
Definition cexec (o : cop) (s : st) : st * res val :=
  match o with
  | COp o => exec o s
  | CCopy i_s i_d off_in off_out len => lift VOff (do_copy i_s i_d off_in off_out len s)
  end.
Fixpoint crun (h : list cop) (s : st) : st * list (cop * res val) :=
  match h with
  | [] => (s, [])
  | o :: h' => let (s1, r) := cexec o s in let (s2, t) := crun h' s1 in (s2, (o, r) :: t)
  end.
(* the copies of the sequence find their source range within the file and written, and their
   destination range not shared.  Each of these conditions is needed, see the end of this file *)
Fixpoint fit (h : list cop) (s : st) : Prop :=
  match h with
  | [] => True
  | o :: h' =>
    match o with
    | COp o => wf_op o
    | CCopy i_s i_d off_in off_out len => copyable (s_w s) i_s i_d off_in off_out len
    end /\ fit h' (fst (cexec o s))
  end.
Definition clost (x : cop * res val) : bool := match x with (COp o, r) => lost (o, r) | _ => false end.
Fixpoint csane (t : list (cop * res val)) : Prop :=
  match t with
  | [] => True
  | x :: t' => (clost x = true -> t' = []) /\ csane t'
  end.

(* ---- meaning: all bytes and sizes ---- *)

Record meaning := mkMeaning { mv : Z -> Z -> option Z; ms : Z -> option Z }.
Definition empty_files : meaning := mkMeaning (fun _ _ => Some 0) (fun _ => Some 0).
Definition mstep (m : meaning) (c : cop * res val) : meaning :=
  match c with
  | (COp o, r) => mkMeaning (fun i x => val1 i x (mv m i x) (o, r)) (fun i => size1 i (ms m i) (o, r))
  | (CCopy i_s i_d off_in off_out len, r) =>
    mkMeaning
      (fun i x => if (i =? i_d) && inr off_out (off_out + len) x
                  then (if isok r then mv m i_s (off_in + (x - off_out)) else None) else mv m i x)
      (fun i => if (i =? i_d) && isok r then option_map (Z.max (off_out + len)) (ms m i) else ms m i)
  end.
Definition means (m : meaning) (W : world) : Prop :=
  (forall i x, 0 <= x -> agree (mv m i x) (content W i x)) /\ (forall i, agree (ms m i) (fi_size (w_ino W i))).

Lemma cexec_step : forall o s m, Inv (s_w s) -> refs1 (s_w s) -> nof s ->
  match o with COp o => wf_op o | CCopy i_s i_d off_in off_out len => copyable (s_w s) i_s i_d off_in off_out len end ->
  means m (s_w s) ->
  let (s', r) := cexec o s in
  nof s' /\ Inv (s_w s') /\ (clost (o, r) = false -> refs1 (s_w s')) /\ r <> Bad /\ means (mstep m (o, r)) (s_w s').
Proof.
  intros o s m I R N F [V Z]. destruct o as [o|i_s i_d off_in off_out len]; cbn [cexec].
  - pose proof (exec_step o s I R N F) as P. destruct (exec o s) as [s' r]. destruct P as (A & B & C & D & E1 & E2).
    split; [exact A|]. split; [exact B|]. split; [exact C|]. split; [exact D|].
    split; [intros i x H; apply E1; [exact H|apply V, H]|intro i; apply E2, Z].
  - unfold lift. pose proof (sp_do_copy (s_w s) i_s i_d off_in off_out len I F s eq_refl N) as P.
    destruct (do_copy i_s i_d off_in off_out len s) as [s' [n|e|]]; cbn [fst snd]; [| |destruct P].
    + destruct P as (N' & -> & Pi & Po & Dj & M & D & Sz). split; [exact N'|]. split; [apply M|]. split; [intros _; apply M, R|]. split; [discriminate|].
      split; cbn [mstep mv ms isok].
      * intros i x H. destruct (i =? i_d) eqn:E; cbn [andb].
        -- replace i with i_d by lia. destruct (inr off_out (off_out + len) x) eqn:Q; unfold inr in Q.
           ++ replace x with (off_out + (x - off_out)) at 2 by lia. rewrite D by lia. apply V. lia.
           ++ rewrite (m_out _ _ _ _ _ M) by lia. apply V, H.
        -- rewrite (m_oth _ _ _ _ _ M) by lia. apply V, H.
      * intro i. rewrite andb_true_r. destruct (i =? i_d) eqn:E.
        -- replace i with i_d by lia. rewrite Sz. specialize (Z i_d). destruct (ms m i_d) as [z|]; cbn [option_map agree] in *; [rewrite Z; reflexivity|exact Logic.I].
        -- rewrite (m_ino _ _ _ _ _ M) by lia. apply Z.
    + destruct P as (N' & _ & [->|(Pi & Po & Ef)]).
      * split; [exact N'|]. split; [exact I|]. split; [intros _; exact R|]. split; [discriminate|]. split; cbn [mstep mv ms isok].
        -- intros i x H. destruct (_ && _); [exact Logic.I|apply V, H].
        -- intro i. rewrite andb_false_r. apply Z.
      * split; [exact N'|]. split; [apply Ef|]. split; [intros _; apply Ef, R|]. split; [discriminate|]. split; cbn [mstep mv ms isok].
        -- intros i x H. destruct (i =? i_d) eqn:E; cbn [andb].
           ++ replace i with i_d by lia. destruct (inr off_out (off_out + len) x) eqn:Q; unfold inr in Q; [exact Logic.I|].
              rewrite (e_out _ _ _ _ _ Ef) by lia. apply V, H.
           ++ rewrite (e_oth _ _ _ _ _ Ef) by lia. apply V, H.
        -- intro i. rewrite andb_false_r. destruct (Z.eq_dec i i_d) as [->|Ni]; [rewrite (e_size _ _ _ _ _ Ef)|rewrite (e_ino _ _ _ _ _ Ef i Ni)]; apply Z.
Qed.
Lemma crun_ok : forall h s m, Inv (s_w s) -> refs1 (s_w s) -> nof s -> fit h s -> means m (s_w s) ->
  let (s', t) := crun h s in
  csane t -> nof s' /\ Inv (s_w s') /\ (forall c, In c t -> snd c <> Bad) /\ means (fold_left mstep t m) (s_w s').
Proof.
  induction h as [|o h IH]; intros s m I R N F M; cbn [crun].
  - intros _. split; [exact N|]. split; [exact I|]. split; [intros c []|exact M].
  - cbn [fit] in F. destruct F as [F1 F2]. pose proof (cexec_step o s m I R N F1 M) as P. destruct (cexec o s) as [s1 r]. cbn [fst] in F2.
    destruct P as (N1 & I1 & R1 & B1 & M1). destruct (clost (o, r)) eqn:L.
    + destruct (crun h s1) as [s2 t] eqn:E. cbn [csane]. intros [S _]. specialize (S L). subst t.
      assert (h = [] /\ s2 = s1) as [-> ->].
      { destruct h as [|o' h]; cbn [crun] in E; [split; [reflexivity|congruence]|]. destruct (cexec o' s1) as [s3 r3]. destruct (crun h s3). discriminate. }
      split; [exact N1|]. split; [exact I1|]. split; [intros c [<-|[]]; exact B1|exact M1].
    + specialize (IH s1 (mstep m (o, r)) I1 (R1 eq_refl) N1 F2 M1). destruct (crun h s1) as [s2 t]. cbn [csane]. intros [_ S].
      destruct (IH S) as (A & B & D & E). split; [exact A|]. split; [exact B|]. split; [intros c [<-|X]; [exact B1|apply D, X]|exact E].
Qed.

(* ---- C27 ---- *)

Definition copy_history (ty : Z -> bool) (h : list cop) (s0 s1 : st) (t : list (cop * res val)) : Prop :=
  s_w s0 = fresh ty /\ ~ In ENOENT (s_fail s0) /\ fit h s0 /\ crun h s0 = (s1, t) /\ csane t.
Lemma copy_history_run : forall ty h s0 s1 t, copy_history ty h s0 s1 t ->
  nof s1 /\ Inv (s_w s1) /\ (forall c, In c t -> snd c <> Bad) /\ means (fold_left mstep t empty_files) (s_w s1).
Proof.
  intros ty h s0 s1 t (F & N & Ft & R & S). destruct (fresh_inv ty) as [I Rf]. rewrite <- F in I, Rf.
  assert (M : means empty_files (s_w s0)).
  { rewrite F. split; [intros i x _; apply fresh_content|intro i; reflexivity]. }
  pose proof (crun_ok h s0 empty_files I Rf N Ft M) as P. rewrite R in P. apply P, S.
Qed.
(* whatever was written, truncated, punched, reserved and copied, in any order and between any
   files: what a file reads is what reading and writing would have left there.  In particular a
   write after a copy is seen in no other file, and a copy leaves its source as it was *)
Theorem copy_like_read_write_partial : forall ty h s0 s1 t, copy_history ty h s0 s1 t ->
  (forall c, In c t -> snd c <> Bad) /\
  forall i off len s2 d, 0 <= len -> exec (ORead i off len) s1 = (s2, Ok (VBytes d)) ->
  let m := fold_left mstep t empty_files in
  (forall z, ms m i = Some z -> zlen d = Z.max 0 (Z.min len (z - off))) /\
  (forall k v, 0 <= k < zlen d -> mv m i (off + k) = Some v -> znth d k 0 = v).
Proof.
  intros ty h s0 s1 t H. destruct (copy_history_run _ _ _ _ _ H) as (N & I & B & V & Sz). split; [exact B|].
  intros i off len s2 d Hl X m. destruct (exec_read i off len s1 s2 d I N Hl X) as (_ & _ & Ho & L & D). split.
  - intros z E. rewrite L. specialize (Sz i). fold m in Sz. rewrite E in Sz. cbn [agree] in Sz. rewrite Sz. reflexivity.
  - intros k v Hk E. rewrite D by exact Hk. specialize (V i (off + k) ltac:(lia)). fold m in V. rewrite E in V. exact V.
Qed.
(* one copy: all of it, into the destination range and nowhere else, or an error *)
Theorem copy_result_partial : forall ty h s0 s1 t i_s i_d off_in off_out len s2 r, copy_history ty h s0 s1 t ->
  copyable (s_w s1) i_s i_d off_in off_out len -> do_copy i_s i_d off_in off_out len s1 = (s2, r) ->
  match r with
  | Ok n => n = len /\
    (forall k, 0 <= k < len -> content (s_w s2) i_d (off_out + k) = content (s_w s1) i_s (off_in + k)) /\
    fi_size (w_ino (s_w s2) i_d) = Z.max (off_out + len) (fi_size (w_ino (s_w s1) i_d))
  | Err e => fi_size (w_ino (s_w s2) i_d) = fi_size (w_ino (s_w s1) i_d)
  | Bad => False
  end /\
  (forall x, 0 <= x -> ~ (off_out <= x < off_out + len) -> content (s_w s2) i_d x = content (s_w s1) i_d x) /\
  (forall j, j <> i_d -> w_ino (s_w s2) j = w_ino (s_w s1) j /\ forall x, 0 <= x -> content (s_w s2) j x = content (s_w s1) j x).
Proof.
  intros ty h s0 s1 t i_s i_d off_in off_out len s2 r H C E. destruct (copy_history_run _ _ _ _ _ H) as (N & I & _).
  pose proof (sp_do_copy (s_w s1) i_s i_d off_in off_out len I C s1 eq_refl N) as P. rewrite E in P. destruct r as [n|e|]; [| |contradiction].
  - destruct P as (_ & -> & Pi & Po & Dj & M & D & Sz). split; [auto|]. split; [apply M|]. intros j Nj. split; [apply M, Nj|intros x Hx; apply M; assumption].
  - destruct P as (_ & _ & [->|(Pi & Po & Ef)]).
    + split; [reflexivity|]. split; [auto|]. intros j _. auto.
    + split; [apply Ef|]. split; [apply Ef|]. intros j Nj. split; [apply Ef, Nj|intros x Hx; apply Ef; assumption].
Qed.

(* ---- deciding the conditions, for the examples ---- *)

Lemma place_same : forall W i off o, tree_inv W -> 0 <= off <= o -> o < leaf_end W i off -> place W i o = place W i off.
Proof.
  intros W i off o T H L. unfold place. destruct (key_of W i off) as [q|] eqn:E.
  - rewrite (key_leaf_end W i off q) in L by (assumption || lia). rewrite (key_same W i off o q T ltac:(lia) ltac:(lia) E); [reflexivity|].
    destruct (size_cases q) as [S|[S|S]]; rewrite S in *; lia.
  - assert (K : kind_of (fi_ty2 (w_ino W i)) off = TREE).
    { unfold key_of in E. destruct (kind_of _ off); [discriminate|discriminate|reflexivity]. }
    rewrite (tree_leaf_end W i off K) in L. pose proof (tree_kind_up _ off o ltac:(lia) K) as K'.
    unfold key_of in *. rewrite K in E. rewrite K'. rewrite (bottom_same W i o off T) by lia.
    destruct (bottom W i off); [discriminate|reflexivity].
Qed.
Fixpoint each_leaf (f : nat) (p : blk -> bool) (W : world) (i off end_ : Z) : bool :=
  match f with
  | O => false
  | S f' =>
    if off <? end_
    then match place W i off with
         | None => true
         | Some (t, a) => match w_blk W t a with None => true | Some b => p b end
         end && each_leaf f' p W i (leaf_end W i off) end_
    else true
  end.
Lemma each_leaf_ok : forall p W i end_, tree_inv W -> forall f off, 0 <= off -> each_leaf f p W i off end_ = true ->
  forall o t a b, off <= o < end_ -> place W i o = Some (t, a) -> w_blk W t a = Some b -> p b = true.
Proof.
  intros p W i end_ T. induction f as [|f IH]; intros off H E o t a b Ho Hp Hb; cbn [each_leaf] in E; [discriminate|].
  replace (off <? end_) with true in E by lia. apply andb_prop in E. destruct E as [E1 E2].
  destruct (Z_lt_dec o (leaf_end W i off)) as [L|L].
  - rewrite (place_same W i off o T ltac:(lia) L) in Hp. rewrite Hp, Hb in E1. exact E1.
  - pose proof (leaf_end_gt W i off H). apply (IH (leaf_end W i off) ltac:(lia) E2 o t a b); [lia|exact Hp|exact Hb].
Qed.
Definition copyableb (W : world) (i_s i_d off_in off_out len : Z) : bool :=
  (0 <=? len) && (off_in + len <=? fi_size (w_ino W i_s)) && (off_in + len <=? FILE_SIZE_MAX) && (off_out + len <=? FILE_SIZE_MAX) &&
  (0 <=? off_in) && (0 <=? off_out) &&
  each_leaf 30 (fun b => negb (b_unwr b)) W i_s off_in (off_in + len) && each_leaf 30 (fun b => b_ref b =? 1) W i_d off_out (off_out + len).
Lemma copyableb_ok : forall W i_s i_d off_in off_out len, tree_inv W -> copyableb W i_s i_d off_in off_out len = true -> copyable W i_s i_d off_in off_out len.
Proof.
  intros W i_s i_d off_in off_out len T H. unfold copyableb in H. repeat (apply andb_prop in H; destruct H as [H ?]).
  constructor; try lia.
  - intros o H8 H9 t a b Hp Hb. pose proof (each_leaf_ok _ W i_s (off_in + len) T 30 off_in ltac:(lia) H1 o t a b ltac:(lia) Hp Hb) as X. cbv beta in X.
    destruct (b_unwr b); [discriminate|reflexivity].
  - intros o H8 H9 t a b Hp Hb. pose proof (each_leaf_ok _ W i_d (off_out + len) T 30 off_out ltac:(lia) H0 o t a b ltac:(lia) Hp Hb) as X. cbv beta in X. lia.
Qed.
Definition wf_opb (o : op) : bool := match o with ORead _ _ len | OFalloc _ _ _ len => 0 <=? len | _ => true end.
Fixpoint fitb (h : list cop) (s : st) : bool :=
  match h with
  | [] => true
  | o :: h' =>
    let (s1, r) := cexec o s in
    match o with
    | COp o => wf_opb o
    | CCopy i_s i_d off_in off_out len => copyableb (s_w s) i_s i_d off_in off_out len
    end && negb (clost (o, r)) && fitb h' s1
  end.
Lemma fitb_ok : forall h s, Inv (s_w s) -> refs1 (s_w s) -> nof s -> fitb h s = true -> fit h s /\ csane (snd (crun h s)).
Proof.
  induction h as [|o h IH]; intros s I R N F; [split; exact Logic.I|]. cbn [fitb] in F. destruct (cexec o s) as [s1 r] eqn:X.
  apply andb_prop in F. destruct F as [F F3]. apply andb_prop in F. destruct F as [F1 F2].
  assert (G : match o with COp o => wf_op o | CCopy i_s i_d off_in off_out len => copyable (s_w s) i_s i_d off_in off_out len end).
  { destruct o as [o|i_s i_d off_in off_out len]; [destruct o; cbn [wf_opb wf_op] in *; auto; lia|apply copyableb_ok; [apply I|exact F1]]. }
  pose proof (cexec_step o s (mkMeaning (fun _ _ => None) (fun _ => None)) I R N G ltac:(split; intros; exact Logic.I)) as P. rewrite X in P.
  destruct P as (N1 & I1 & R1 & _). destruct (clost (o, r)) eqn:L; [discriminate|]. destruct (IH s1 I1 (R1 eq_refl) N1 F3) as [A B].
  cbn [fit crun]. rewrite X. destruct (crun h s1) as [s2 t]. cbn [fst snd csane] in *. split; [split; [exact G|exact A]|].
  split; [rewrite L; discriminate|exact B].
Qed.
Lemma copy_history_ex : forall h s0, s_w s0 = fresh (fun _ => false) -> s_fail s0 = [] -> fitb h s0 = true ->
  copy_history (fun _ => false) h s0 (fst (crun h s0)) (snd (crun h s0)).
Proof.
  intros h s0 F E B. destruct (fresh_inv (fun _ => false)) as [I R]. rewrite <- F in I, R.
  assert (N : nof s0) by (unfold nof; rewrite E; intros []). destruct (fitb_ok h s0 I R N B) as [A C].
  split; [exact F|]. split; [exact N|]. split; [exact A|]. split; [destruct (crun h s0); reflexivity|exact C].
Qed.
(* two leaves shared by three files, one of them written to afterwards; part of a small leaf copied
   within a file; a hole copied over data *)
Definition ex_copies : list cop :=
  [COp (OWrite 7 65536 [1; 2; 3]); COp (OTrunc 7 200000); CCopy 7 8 65536 131072 65536; CCopy 7 9 65536 65536 100000;
   COp (OWrite 8 131073 [9]); COp (OWrite 7 65538 [8]); COp (OWrite 8 100 [4; 5; 6]); CCopy 8 8 101 3000 2; CCopy 7 8 1000 101 2].
Example copy_like_ex : copy_history (fun _ => false) ex_copies (ex0 []) (fst (crun ex_copies (ex0 []))) (snd (crun ex_copies (ex0 []))) /\
  map snd (snd (crun (ex_copies ++ map COp [ORead 7 65536 4; ORead 8 131072 4; ORead 9 65536 4; ORead 8 99 5; ORead 8 2999 4; ORead 9 165530 100]) (ex0 [])))
  = [Ok VUnit; Ok VUnit; Ok (VOff 65536); Ok (VOff 100000); Ok VUnit; Ok VUnit; Ok VUnit; Ok (VOff 2); Ok (VOff 2);
     Ok (VBytes [1; 2; 8; 0]); Ok (VBytes [1; 9; 3; 0]); Ok (VBytes [1; 2; 3; 0]); Ok (VBytes [0; 4; 0; 0; 0]); Ok (VBytes [0; 5; 6; 0]);
     Ok (VBytes [0; 0; 0; 0; 0; 0])].
Proof. split; [apply copy_history_ex; [reflexivity|reflexivity|vm_compute; reflexivity]|vm_compute; reflexivity]. Qed.
Example copy_result_ex : let h := [COp (OWrite 7 65536 [1; 2; 3]); COp (OTrunc 7 200000)] in
  copyable (s_w (fst (crun h (ex0 [])))) 7 8 65536 131072 65536 /\ snd (do_copy 7 8 65536 131072 65536 (fst (crun h (ex0 [])))) = Ok 65536.
Proof.
  cbv zeta. split; [|vm_compute; reflexivity]. apply copyableb_ok; [|vm_compute; reflexivity].
  apply (copy_history_run (fun _ => false) [COp (OWrite 7 65536 [1; 2; 3]); COp (OTrunc 7 200000)] (ex0 []) _ (snd (crun [COp (OWrite 7 65536 [1; 2; 3]); COp (OTrunc 7 200000)] (ex0 [])))).
  apply copy_history_ex; [reflexivity|reflexivity|vm_compute; reflexivity].
Qed.
Print Assumptions copy_like_read_write_partial.
Print Assumptions copy_result_partial.

(* ---- what does not hold without the conditions ---- *)

(* C27, C19: the source range has been reserved and never written: it reads as zeros, but the copy
   gets what somebody else has left in the storage (the mark of unwritten space is not looked at
   where a whole small leaf is copied, filc_pre_write_leaf with len equal to the leaf) *)
Theorem copy_of_unwritten_shows_old_bytes_refuted : exists s0, s_w s0 = fresh (fun _ => false) /\
  map snd (snd (crun [COp (OFalloc 7 0 0 1024); COp (ORead 7 0 3); CCopy 7 8 0 0 1024; COp (ORead 8 0 3)] s0))
  = [Ok VUnit; Ok (VBytes [0; 0; 0]); Ok (VOff 1024); Ok (VBytes [170; 170; 170])].
Proof. exists (ex0 []). split; [reflexivity|]. vm_compute. reflexivity. Qed.
(* C27, C19: a whole reserved leaf is shared; writing one byte of it in either file makes the other
   bytes of the leaf appear with what somebody else has left there (filc_unshare_leaf_by copies the
   leaf without looking at the mark, and clears the mark of the copy) *)
Theorem unshare_of_unwritten_shows_old_bytes_refuted : exists s0, s_w s0 = fresh (fun _ => false) /\
  map snd (snd (crun [COp (OFalloc 7 0 65536 65536); CCopy 7 8 65536 65536 65536; COp (ORead 8 65536 3); COp (OWrite 8 65536 [1]); COp (ORead 8 65536 3)] s0))
  = [Ok VUnit; Ok (VOff 65536); Ok (VBytes [0; 0; 0]); Ok VUnit; Ok (VBytes [1; 170; 170])].
Proof. exists (ex0 []). split; [reflexivity|]. vm_compute. reflexivity. Qed.
(* C27: a source range which ends beyond the end of the file: ten bytes are said to be copied, and
   the bytes of the destination behind them are zeroed as well (filc_discard_data_by goes up to the
   end of the requested range) *)
Theorem copy_past_end_zeroes_more_refuted : exists s0, s_w s0 = fresh (fun _ => false) /\
  map snd (snd (crun [COp (OTrunc 7 10); COp (OWrite 8 0 [9; 9; 9; 9; 9; 9; 9; 9; 9; 9; 9; 9]); CCopy 7 8 0 0 12; COp (ORead 8 0 12)] s0))
  = [Ok VUnit; Ok VUnit; Ok (VOff 10); Ok (VBytes [0; 0; 0; 0; 0; 0; 0; 0; 0; 0; 0; 0])].
Proof. exists (ex0 []). split; [reflexivity|]. vm_compute. reflexivity. Qed.
(* C27: copying 5000 bytes from an empty file to an empty file says that 5000 bytes were copied, and
   makes the destination as long: the start of both ranges is moved to the first data of either
   (filc_set_copy_range_start), each up to its own end *)
Theorem copy_from_empty_refuted : exists s0, s_w s0 = fresh (fun _ => false) /\
  map snd (snd (crun [COp (ORead 7 0 3); CCopy 7 8 0 0 5000; COp (ORead 8 4998 10)] s0)) = [Ok (VBytes []); Ok (VOff 5000); Ok (VBytes [0; 0])].
Proof. exists (ex0 []). split; [reflexivity|]. vm_compute. reflexivity. Qed.
(* C27: file 8 has got a leaf from file 7 by a copy; a copy of three bytes from file 9 to file 8
   appears in file 7 too (filc_copy_range_at_leaf_by writes to the leaf of the destination without
   testing whether it is shared) *)
Theorem copy_into_shared_changes_other_refuted : exists s0, s_w s0 = fresh (fun _ => false) /\
  map snd (snd (crun [COp (OWrite 7 65536 [1]); COp (OTrunc 7 131072); COp (OWrite 9 70000 [5; 6; 7]); CCopy 7 8 65536 65536 65536;
                      COp (ORead 7 70000 3); CCopy 9 8 70000 70000 3; COp (ORead 7 70000 3)] s0))
  = [Ok VUnit; Ok VUnit; Ok VUnit; Ok (VOff 65536); Ok (VBytes [0; 0; 0]); Ok (VOff 3); Ok (VBytes [5; 6; 7])].
Proof. exists (ex0 []). split; [reflexivity|]. vm_compute. reflexivity. Qed.
(* C25, C27: a copy to the end of the largest file aborts; nothing but the end of the source bounds
   the destination range (filc_check_copy_range), and the tree has no node for such an offset *)
Theorem copy_past_max_aborts_refuted : exists s0, s_w s0 = fresh (fun _ => false) /\
  map snd (snd (crun [COp (OFalloc 7 0 65536 131072); CCopy 7 8 65536 (2 ^ 56 - 65536) 131072] s0)) = [Ok VUnit; Bad].
Proof. exists (mkSt (fresh (fun _ => false)) [] (map (fun k => (Z.of_nat k * 65536, old)) (seq 1 20)) []). split; [reflexivity|]. vm_compute. reflexivity. Qed.
(* C27: a failed copy leaves bytes behind the end of the file, which show up when the file is made
   longer *)
Theorem failed_copy_leaves_bytes_refuted : exists s0, s_w s0 = fresh (fun _ => false) /\
  map snd (snd (crun [COp (OWrite 7 1023 [1; 2]); CCopy 7 8 1023 1023 2; COp (ORead 8 0 5000); COp (OTrunc 8 1025); COp (ORead 8 1022 3)] s0))
  = [Ok VUnit; Err 5; Ok (VBytes []); Ok VUnit; Ok (VBytes [0; 1; 0])].
Proof. exists (ex0 (map (fun _ => 0) (seq 0 26) ++ [5])). split; [reflexivity|]. vm_compute. reflexivity. Qed.
Print Assumptions copy_of_unwritten_shows_old_bytes_refuted.
Print Assumptions unshare_of_unwritten_shows_old_bytes_refuted.
Print Assumptions copy_past_end_zeroes_more_refuted.
Print Assumptions copy_from_empty_refuted.
Print Assumptions copy_into_shared_changes_other_refuted.
Print Assumptions copy_past_max_aborts_refuted.
Print Assumptions failed_copy_leaves_bytes_refuted.
