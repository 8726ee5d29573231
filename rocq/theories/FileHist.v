(* Sequences of calls on files and what they are meant to leave in each byte.  The meaning is given
   by the calls and their results alone, without looking at leaves or trees *)
From Verif Require Import Base AddrModel FileModel FileTree FileInv FileSpec FileLeaf FileRead FileGrow FileLoops FileOps FileSeek FileDrop FileLseek.

(* ---- calls ---- *)

Inductive op :=
| ORead (i off len : Z)
| OWrite (i off : Z) (dat : bytes)
| OTrunc (i off : Z)
| OFalloc (i mode off len : Z)
| OSeek (hole : bool) (i off : Z).
Inductive val := VUnit | VBytes (d : bytes) | VOff (o : Z).
Definition lift {A} (f : A -> val) (x : st * res A) : st * res val :=
  (fst x, match snd x with Ok a => Ok (f a) | Err e => Err e | Bad => Bad end).
(* silofs_do_read, silofs_do_write, silofs_do_truncate, silofs_do_fallocate, silofs_do_lseek of
   lib/file.c *)
Definition exec (o : op) (s : st) : st * res val :=
  match o with
  | ORead i off len => lift VBytes (do_read i off len s)
  | OWrite i off dat => lift (fun _ => VUnit) (do_write i off dat s)
  | OTrunc i off => lift (fun _ => VUnit) (do_truncate i off s)
  | OFalloc i mode off len => lift (fun _ => VUnit) (do_fallocate i mode off len s)
  | OSeek hole i off => lift VOff (do_lseek hole i off s)
  end.
(* one call after the other; each with its result *)
Fixpoint run (h : list op) (s : st) : st * list (op * res val) :=
  match h with
  | [] => (s, [])
  | o :: h' => let (s1, r) := exec o s in let (s2, t) := run h' s1 in (s2, (o, r) :: t)
  end.
(* lengths come in unsigned types *)
Definition wf_op (o : op) : Prop :=
  match o with ORead _ _ len | OFalloc _ _ _ len => 0 <= len | _ => True end.
(* a failed truncation to zero may only come last *)
Definition lost (x : op * res val) : bool :=
  match x with (OTrunc _ off, Ok _) => false | (OTrunc _ off, _) => off =? 0 | _ => false end.
Fixpoint sane (t : list (op * res val)) : Prop :=
  match t with
  | [] => True
  | x :: t' => (lost x = true -> t' = []) /\ sane t'
  end.

(* ---- meaning ---- *)

Definition isok {A} (r : res A) : bool := match r with Ok _ => true | _ => false end.
Definition inr (lo hi x : Z) : bool := (lo <=? x) && (x <? hi).
(* the arguments are such that the call may change something *)
Definition io_args (off len : Z) : bool := (0 <=? off) && (off + len <=? FILE_SIZE_MAX).
Definition reserves (mode : Z) : bool := Z.ldiff mode FL_KEEP_SIZE =? 0.
(* byte x of file i; None: a failed call has been at it *)
Definition val1 (i x : Z) (v : option Z) (c : op * res val) : option Z :=
  match c with
  | (OWrite j off dat, r) =>
    if (j =? i) && io_args off (zlen dat) && inr off (off + zlen dat) x
    then (if isok r then Some (znth dat (x - off) 0) else None) else v
  | (OTrunc j off, r) =>
    if (j =? i) && io_args off 0 && (off <=? x) then (if isok r then Some 0 else None) else v
  | (OFalloc j mode off len, r) =>
    if (j =? i) && negb (reserves mode) && io_args off len && inr off (off + len) x
    then (if isok r then Some 0 else None) else v
  | _ => v
  end.
(* the size of file i *)
Definition size1 (i : Z) (z : option Z) (c : op * res val) : option Z :=
  match c with
  | (OWrite j off dat, r) =>
    if (j =? i) && io_args off (zlen dat)
    then (if isok r then option_map (Z.max (off + zlen dat)) z else None) else z
  | (OTrunc j off, r) => if (j =? i) && isok r then Some off else z
  | (OFalloc j mode off len, r) =>
    if (j =? i) && isok r && negb (fl_has mode FL_KEEP_SIZE) then option_map (Z.max (off + len)) z else z
  | _ => z
  end.
Definition last_val (v0 : Z) (t : list (op * res val)) (i x : Z) : option Z := fold_left (val1 i x) t (Some v0).
Definition last_size (z0 : Z) (t : list (op * res val)) (i : Z) : option Z := fold_left (size1 i) t (Some z0).

(* ---- one call ---- *)

Definition agree (v : option Z) (z : Z) : Prop := match v with Some y => z = y | None => True end.
Definition same_but (c : op * res val) (W W' : world) : Prop :=
  (forall i x v, 0 <= x -> agree v (content W i x) -> agree (val1 i x v c) (content W' i x)) /\
  (forall i z, agree z (fi_size (w_ino W i)) -> agree (size1 i z c) (fi_size (w_ino W' i))).
Lemma same_refl : forall c W, (forall i x v z, agree v z -> agree (val1 i x v c) z) -> (forall i v z, agree v z -> agree (size1 i v c) z) -> same_but c W W.
Proof. intros c W A B. split; [intros i x v _ H; apply A, H|intros i z H; apply B, H]. Qed.

Lemma exec_step : forall o s, Inv (s_w s) -> refs1 (s_w s) -> nof s -> wf_op o ->
  let (s', r) := exec o s in
  nof s' /\ Inv (s_w s') /\ (lost (o, r) = false -> refs1 (s_w s')) /\ r <> Bad /\ same_but (o, r) (s_w s) (s_w s').
Proof.
  intros o s I R N Wf. destruct o as [i off len|i off dat|i off|i mode off len|hole i off]; cbn [exec wf_op] in *; unfold lift.
  - pose proof (sp_do_read (s_w s) i off len I Wf s eq_refl N) as P. destruct (do_read i off len s) as [s' [d|e|]]; cbn [fst snd]; [| |destruct P].
    + destruct P as (N' & -> & _). split; [exact N'|]; split; [exact I|]; split; [intros _; exact R|]; split; [discriminate|]; apply same_refl; intros; assumption.
    + destruct P as (N' & _ & ->). split; [exact N'|]; split; [exact I|]; split; [intros _; exact R|]; split; [discriminate|]; apply same_refl; intros; assumption.
  - pose proof (sp_do_write (s_w s) i off dat I s eq_refl N) as P. destruct (do_write i off dat s) as [s' [[]|e|]]; cbn [fst snd]; [| |destruct P].
    + destruct P as (N' & R1 & R2 & M & D & Sz & _). split; [exact N'|]. split; [apply M|]. split; [intros _; apply M, R|]. split; [discriminate|].
      split.
      * intros j x v X A. cbn [val1 isok]. destruct (i =? j) eqn:J; cbn [andb].
        -- replace j with i in * by lia. unfold io_args. replace (0 <=? off) with true by lia. replace (off + zlen dat <=? FILE_SIZE_MAX) with true by lia.
           cbn [andb]. destruct (inr off (off + zlen dat) x) eqn:Q; unfold inr in Q; [apply D; lia|]. rewrite (m_out _ _ _ _ _ M) by lia. exact A.
        -- rewrite (m_oth _ _ _ _ _ M) by lia. exact A.
      * intros j z A. cbn [size1 isok]. destruct (i =? j) eqn:J; cbn [andb].
        -- replace j with i in * by lia. unfold io_args. replace (0 <=? off) with true by lia. replace (off + zlen dat <=? FILE_SIZE_MAX) with true by lia.
           cbn [andb]. destruct z as [z|]; cbn [option_map agree] in *; [|exact Logic.I]. rewrite Sz, A. reflexivity.
        -- rewrite (m_ino _ _ _ _ _ M) by lia. exact A.
    + destruct P as (N' & _ & [P|(o & R1 & R2 & M & _)]); split; try exact N'.
      * rewrite P. split; [exact I|]. split; [intros _; exact R|]. split; [discriminate|]. apply same_refl.
        -- intros j x v z A. cbn [val1 isok]. destruct (_ && _); [exact Logic.I|exact A].
        -- intros j v z A. cbn [size1 isok]. destruct (_ && _); [exact Logic.I|exact A].
      * split; [apply M|]. split; [intros _; apply M, R|]. split; [discriminate|]. split.
        -- intros j x v X A. cbn [val1 isok]. destruct (i =? j) eqn:J; cbn [andb].
           ++ replace j with i in * by lia. unfold io_args. replace (0 <=? off) with true by lia. replace (off + zlen dat <=? FILE_SIZE_MAX) with true by lia.
              cbn [andb]. destruct (inr off (off + zlen dat) x) eqn:Q; unfold inr in Q; [exact Logic.I|]. rewrite (m_out _ _ _ _ _ M) by lia. exact A.
           ++ rewrite (m_oth _ _ _ _ _ M) by lia. exact A.
        -- intros j z A. cbn [size1 isok]. destruct (i =? j) eqn:J; cbn [andb].
           ++ unfold io_args. replace (0 <=? off) with true by lia. replace (off + zlen dat <=? FILE_SIZE_MAX) with true by lia. exact Logic.I.
           ++ rewrite (m_ino _ _ _ _ _ M) by lia. exact A.
  - pose proof (sp_do_truncate (s_w s) i off I R s eq_refl N) as P. destruct (do_truncate i off s) as [s' [[]|e|]]; cbn [fst snd]; [| |destruct P].
    + destruct P as (N' & R1 & T & Rf & D & Sz & _). split; [exact N'|]. split; [apply T|]. split; [intros _; exact Rf|]. split; [discriminate|]. split.
      * intros j x v X A. cbn [val1 isok]. destruct (i =? j) eqn:J; cbn [andb].
        -- replace j with i in * by lia. unfold io_args. replace (0 <=? off) with true by lia. replace (off + 0 <=? FILE_SIZE_MAX) with true by lia.
           cbn [andb]. destruct (off <=? x) eqn:Q; [apply D; lia|]. rewrite (t_low _ _ _ _ T) by lia. exact A.
        -- rewrite (t_oth _ _ _ _ T) by lia. exact A.
      * intros j z A. cbn [size1 isok]. rewrite andb_true_r. destruct (i =? j) eqn:J; cbn [andb].
        -- replace j with i in * by lia. exact Sz.
        -- rewrite (t_ino _ _ _ _ T) by lia. exact A.
    + destruct P as (N' & _ & T & Sz & _ & Rf & V). split; [exact N'|]. split; [apply T|]. split; [cbn [lost]; intro L; apply Rf; lia|]. split; [discriminate|]. split.
      * intros j x v X A. cbn [val1 isok]. destruct (i =? j) eqn:J; cbn [andb].
        -- replace j with i in * by lia. unfold io_args. destruct ((0 <=? off) && (off + 0 <=? FILE_SIZE_MAX)) eqn:Y; cbn [andb].
           ++ destruct (off <=? x) eqn:Q; [exact Logic.I|]. rewrite (t_low _ _ _ _ T) by lia. exact A.
           ++ destruct V as [->|V]; [exact A|]. exfalso. lia.
        -- rewrite (t_oth _ _ _ _ T) by lia. exact A.
      * intros j z A. cbn [size1 isok]. rewrite andb_false_r. destruct (Z.eq_dec j i) as [->|Nj]; [rewrite Sz; exact A|].
        rewrite (t_ino _ _ _ _ T) by lia. exact A.
  - pose proof (sp_do_fallocate (s_w s) i mode off len I Wf s eq_refl N) as P. destruct (do_fallocate i mode off len s) as [s' [[]|e|]]; cbn [fst snd]; [| |destruct P].
    + destruct P as (N' & R1 & R2 & C & Sz & _). split; [exact N'|]. split; [destruct C as [[_ M]|(_ & M & _)]; apply M|].
      split; [intros _; destruct C as [[_ M]|(_ & M & _)]; apply M, R|]. split; [discriminate|]. split.
      * intros j x v X A. cbn [val1 isok]. destruct (i =? j) eqn:J; cbn [andb].
        -- replace j with i in * by lia. unfold io_args, reserves. replace (0 <=? off) with true by lia. replace (off + len <=? FILE_SIZE_MAX) with true by lia.
           destruct C as [[K M]|(K & M & D)].
           ++ rewrite K. cbn [Z.eqb negb andb]. rewrite (m_out _ _ _ _ _ M) by lia. exact A.
           ++ replace (Z.ldiff mode FL_KEEP_SIZE =? 0) with false by lia. cbn [negb andb].
              destruct (inr off (off + len) x) eqn:Q; unfold inr in Q; [apply D; lia|]. rewrite (m_out _ _ _ _ _ M) by lia. exact A.
        -- destruct C as [[K M]|(K & M & D)]; rewrite (m_oth _ _ _ _ _ M) by lia; exact A.
      * intros j z A. cbn [size1 isok]. rewrite andb_true_r. destruct (i =? j) eqn:J; cbn [andb].
        -- replace j with i in * by lia. destruct (fl_has mode FL_KEEP_SIZE); cbn [negb]; [rewrite Sz; exact A|].
           destruct z as [z|]; cbn [option_map agree] in *; [|exact Logic.I]. rewrite Sz, A. reflexivity.
        -- assert (Nj : j <> i) by lia. destruct C as [[K M]|(K & M & D)]; rewrite (m_ino _ _ _ _ _ M _ Nj); exact A.
    + destruct P as (N' & _ & Sz & _ & V). split; [exact N'|]. destruct V as [E|(R1 & R2 & M)].
      * rewrite E. split; [exact I|]. split; [intros _; exact R|]. split; [discriminate|]. apply same_refl.
        -- intros j x v z A. cbn [val1 isok]. destruct (_ && _); [exact Logic.I|exact A].
        -- intros j v z A. cbn [size1 isok]. rewrite andb_false_r. exact A.
      * split; [apply M|]. split; [intros _; apply M, R|]. split; [discriminate|]. split.
        -- intros j x v X A. cbn [val1 isok]. destruct (i =? j) eqn:J; cbn [andb].
           ++ replace j with i in * by lia. unfold io_args. replace (0 <=? off) with true by lia. replace (off + len <=? FILE_SIZE_MAX) with true by lia.
              unfold reserves. cbn [andb]. rewrite andb_true_r. destruct (Z.ldiff mode FL_KEEP_SIZE =? 0); cbn [negb andb].
              ** rewrite (m_out _ _ _ _ _ M) by lia. exact A.
              ** destruct (inr off (off + len) x) eqn:Q; unfold inr in Q; [exact Logic.I|]. rewrite (m_out _ _ _ _ _ M) by lia. exact A.
           ++ rewrite (m_oth _ _ _ _ _ M) by lia. exact A.
        -- intros j z A. cbn [size1 isok]. rewrite andb_false_r. cbn [andb]. destruct (Z.eq_dec j i) as [->|Nj]; [rewrite Sz; exact A|].
           rewrite (m_ino _ _ _ _ _ M _ Nj). exact A.
  - pose proof (lseek_ok (s_w s) i off hole s I eq_refl N) as P. destruct (do_lseek hole i off s) as [s' [o|e|]]; cbn [fst snd]; [| |destruct P].
    + destruct P as (N' & -> & _). split; [exact N'|]; split; [exact I|]; split; [intros _; exact R|]; split; [discriminate|]; apply same_refl; intros; assumption.
    + destruct P as (N' & -> & _). split; [exact N'|]; split; [exact I|]; split; [intros _; exact R|]; split; [discriminate|]; apply same_refl; intros; assumption.
Qed.

(* ---- all of them ---- *)

Lemma run_app : forall a b s, run (a ++ b) s = (let (s1, t1) := run a s in let (s2, t2) := run b s1 in (s2, t1 ++ t2)).
Proof.
  induction a as [|o a IH]; intros b s; cbn [run app].
  - destruct (run b s). reflexivity.
  - destruct (exec o s) as [s1 r]. rewrite IH. destruct (run a s1) as [s2 t]. destruct (run b s2). reflexivity.
Qed.
Lemma run_ok : forall h s, Inv (s_w s) -> refs1 (s_w s) -> nof s -> Forall wf_op h ->
  let (s', t) := run h s in
  sane t -> nof s' /\ Inv (s_w s') /\ (forallb (fun x => negb (lost x)) t = true -> refs1 (s_w s')) /\
  (forall c, In c t -> snd c <> Bad) /\
  (forall i x v, 0 <= x -> agree v (content (s_w s) i x) -> agree (fold_left (val1 i x) t v) (content (s_w s') i x)) /\
  (forall i z, agree z (fi_size (w_ino (s_w s) i)) -> agree (fold_left (size1 i) t z) (fi_size (w_ino (s_w s') i))).
Proof.
  induction h as [|o h IH]; intros s I R N F; cbn [run].
  - intros _. split; [exact N|]. split; [exact I|]. split; [intros _; exact R|]. split; [intros c []|]. split; intros; assumption.
  - inversion F as [|? ? F1 F2]; subst. pose proof (exec_step o s I R N F1) as P. destruct (exec o s) as [s1 r].
    destruct P as (N1 & I1 & R1 & B1 & [V1 Z1]). destruct (lost (o, r)) eqn:L.
    + destruct (run h s1) as [s2 t] eqn:E. cbn [sane]. intros [S _]. specialize (S L). subst t.
      assert (h = [] /\ s2 = s1) as [-> ->].
      { destruct h as [|o' h]; cbn [run] in E; [split; [reflexivity|congruence]|]. destruct (exec o' s1) as [s3 r3]. destruct (run h s3). discriminate. }
      split; [exact N1|]. split; [exact I1|]. split; [cbn [forallb]; rewrite L; discriminate|]. split; [intros c [<-|[]]; exact B1|].
      split; [exact V1|exact Z1].
    + specialize (IH s1 I1 (R1 eq_refl) N1 F2). destruct (run h s1) as [s2 t]. cbn [sane]. intros [_ S]. specialize (IH S).
      destruct IH as (A & B & C & D & E & G). split; [exact A|]. split; [exact B|]. split; [cbn [forallb]; rewrite L; exact C|].
      split; [intros c [<-|X]; [exact B1|apply D, X]|]. split; cbn [fold_left].
      * intros i x v X Y. apply E; [exact X|]. apply V1; assumption.
      * intros i z Y. apply G, Z1, Y.
Qed.
(* no files have anything yet; which of them have leaves in the inode *)
Definition fresh (ty : Z -> bool) : world := mkW (fun i => fi_new (ty i)) (fun _ => None) (fun _ _ => None).
Lemma fresh_inv : forall ty, Inv (fresh ty) /\ refs1 (fresh ty).
Proof.
  intro ty. assert (Hn : forall q, hold (fresh ty) q = None).
  { intros [i k|a s]; cbn; [destruct (_ && _)|]; reflexivity. }
  split; [split|].
  - constructor; try (intros a n X; discriminate); try (intros a n s [X _]; discriminate);
      try (intros a n s a' n' s' [X _]; discriminate); try (intros i t r X; discriminate); intros i t r a n s X; discriminate.
  - constructor; try (intros q t a X; rewrite Hn in X; discriminate); try (intros t a b X; discriminate); try (intros t a b l X; discriminate).
    intro i. exists []. split; [constructor|]. split; [|reflexivity]. intro q. rewrite Hn. split; [intros []|intros [X _]; congruence].
  - intros a n X. discriminate.
Qed.
Lemma fresh_content : forall ty i x, content (fresh ty) i x = 0.
Proof.
  intros ty i x. unfold content. destruct (key_of _ _ _) as [q|]; [|reflexivity]. unfold kval.
  replace (hold (fresh ty) q) with (@None (Z * Z)); [reflexivity|]. destruct q; cbn; [destruct (_ && _)|]; reflexivity.
Qed.
