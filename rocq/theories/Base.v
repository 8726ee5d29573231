(* Shared vocabulary: bytes, little-endian numbers, machine-word casts, and a
   few list operations used by several models. *)
From Coq Require Export ZArith List Bool Lia.
From Coq Require Export ZifyBool.
Export ListNotations.
Open Scope Z_scope.

Ltac Zify.zify_post_hook ::= Z.div_mod_to_equations.

(* A byte is an integer in [0,256). *)
Definition is_byte (b : Z) : Prop := 0 <= b < 256.
Definition bytes := list Z.
Definition all_bytes (l : bytes) : Prop := Forall is_byte l.

(* C integer casts. *)
Definition u8  (x : Z) : Z := x mod 2 ^ 8.
Definition u16 (x : Z) : Z := x mod 2 ^ 16.
Definition u32 (x : Z) : Z := x mod 2 ^ 32.
Definition u64 (x : Z) : Z := x mod 2 ^ 64.
(* (int64_t)x of a value, two's complement *)
Definition s64 (x : Z) : Z :=
  let y := x mod 2 ^ 64 in if y <? 2 ^ 63 then y else y - 2 ^ 64.

(* silofs_cpu_to_le16/32/64 followed by the store of the field:
   include/silofs/addr/htox.h:26-54.  The n low bytes, least significant first. *)
Fixpoint le_enc (n : nat) (x : Z) : bytes :=
  match n with
  | O => []
  | S k => (x mod 256) :: le_enc k (x / 256)
  end.

(* le16/32/64_to_cpu: include/silofs/addr/htox.h:31-59 *)
Fixpoint le_dec (l : bytes) : Z :=
  match l with
  | [] => 0
  | b :: r => b + 256 * le_dec r
  end.

Lemma le_enc_length : forall n x, length (le_enc n x) = n.
Proof. induction n; intros; simpl; auto. Qed.

Lemma le_enc_bytes : forall n x, all_bytes (le_enc n x).
Proof.
  unfold all_bytes. induction n; intros x; cbn [le_enc]; constructor; auto.
  unfold is_byte. pose proof (Z.mod_pos_bound x 256). lia.
Qed.

Lemma le_dec_enc : forall n x, 0 <= x < 256 ^ Z.of_nat n -> le_dec (le_enc n x) = x.
Proof.
  induction n; intros x Hx.
  - simpl in *. lia.
  - cbn [le_enc le_dec]. rewrite IHn.
    + pose proof (Z.div_mod x 256). lia.
    + rewrite Nat2Z.inj_succ, Z.pow_succ_r in Hx by lia.
      split; [apply Z.div_pos; lia | apply Z.div_lt_upper_bound; lia].
Qed.

Lemma le_dec_bound : forall l, all_bytes l -> 0 <= le_dec l < 256 ^ Z.of_nat (length l).
Proof.
  unfold all_bytes, is_byte. induction l as [|b r IH]; intros H.
  - simpl. lia.
  - inversion H as [|? ? Hb Hr]; subst. specialize (IH Hr).
    cbn [le_dec length]. rewrite Nat2Z.inj_succ, Z.pow_succ_r by lia. lia.
Qed.

Lemma le_enc_dec : forall l, all_bytes l -> le_enc (length l) (le_dec l) = l.
Proof.
  unfold all_bytes, is_byte. induction l as [|b r IH]; intros H; auto.
  inversion H as [|? ? Hb Hr]; subst. cbn [length le_enc le_dec].
  f_equal.
  - replace (b + 256 * le_dec r) with (b + le_dec r * 256) by lia.
    rewrite Z_mod_plus_full. apply Z.mod_small; lia.
  - replace (b + 256 * le_dec r) with (le_dec r * 256 + b) by lia.
    rewrite Z.div_add_l by lia.
    rewrite (Z.div_small b) by lia. rewrite Z.add_0_r. apply IH; auto.
Qed.

(* l[i] = x *)
Fixpoint upd {A} (l : list A) (i : nat) (x : A) : list A :=
  match l, i with
  | [], _ => []
  | _ :: r, O => x :: r
  | a :: r, S k => a :: upd r k x
  end.

Lemma upd_length : forall A (l : list A) i x, length (upd l i x) = length l.
Proof. induction l; destruct i; simpl; intros; auto. Qed.

Lemma nth_upd_same : forall A (l : list A) i x d,
  (i < length l)%nat -> nth i (upd l i x) d = x.
Proof. induction l; destruct i; simpl; intros; try lia; auto. apply IHl; lia. Qed.

Lemma nth_upd_other : forall A (l : list A) i j x d,
  i <> j -> nth j (upd l i x) d = nth j l d.
Proof.
  induction l; destruct i, j; simpl; intros; auto; try congruence.
Qed.

Lemma nth_error_upd_same : forall A (l : list A) i x,
  (i < length l)%nat -> nth_error (upd l i x) i = Some x.
Proof. induction l; destruct i; simpl; intros; try lia; auto. apply IHl; lia. Qed.

Lemma nth_error_upd_other : forall A (l : list A) i j x,
  i <> j -> nth_error (upd l i x) j = nth_error l j.
Proof.
  induction l; destruct i, j; simpl; intros; auto; try congruence.
Qed.

Lemma upd_out : forall A (l : list A) i x, (length l <= i)%nat -> upd l i x = l.
Proof. induction l; destruct i; simpl; intros; try lia; auto. f_equal; apply IHl; lia. Qed.

(* upd as a split around position i *)
Lemma upd_split : forall A (l : list A) i x,
  (i < length l)%nat -> upd l i x = firstn i l ++ x :: skipn (S i) l.
Proof.
  induction l; destruct i; simpl; intros; try lia; auto.
  f_equal. apply IHl. lia.
Qed.

Lemma nth_error_split' : forall A (l : list A) i a,
  nth_error l i = Some a -> l = firstn i l ++ a :: skipn (S i) l.
Proof.
  induction l; destruct i; simpl; intros; try discriminate.
  - inversion H; subst; auto.
  - f_equal. apply IHl. auto.
Qed.

(* sum of a list of integers *)
Definition zsum (l : list Z) : Z := fold_right Z.add 0 l.

Lemma zsum_app : forall l m, zsum (l ++ m) = zsum l + zsum m.
Proof. induction l; simpl; intros; auto. unfold zsum in *. rewrite IHl. lia. Qed.

Lemma zsum_cons : forall a l, zsum (a :: l) = a + zsum l.
Proof. reflexivity. Qed.

(* ---- lists indexed by integers: C arrays and buffers ---- *)

Definition zlen {A} (l : list A) : Z := Z.of_nat (length l).
Definition ztake {A} (n : Z) (l : list A) : list A := firstn (Z.to_nat n) l.
Definition zdrop {A} (n : Z) (l : list A) : list A := skipn (Z.to_nat n) l.
(* the len elements starting at off *)
Definition zsub {A} (off len : Z) (l : list A) : list A := ztake len (zdrop off l).
(* memcpy(l + off, d, |d|) *)
Definition zput {A} (l : list A) (off : Z) (d : list A) : list A :=
  ztake off l ++ d ++ zdrop (off + zlen d) l.
Definition znth {A} (l : list A) (i : Z) (d : A) : A := nth (Z.to_nat i) l d.
Definition zrepeat {A} (x : A) (n : Z) : list A := repeat x (Z.to_nat n).

Lemma zlen_app : forall A (a b : list A), zlen (a ++ b) = zlen a + zlen b.
Proof. intros. unfold zlen. rewrite app_length. lia. Qed.
Lemma zlen_nonneg : forall A (a : list A), 0 <= zlen a.
Proof. intros. unfold zlen. lia. Qed.
Lemma zlen_nil : forall A, zlen (@nil A) = 0.
Proof. reflexivity. Qed.
Lemma zlen_cons : forall A (x : A) l, zlen (x :: l) = 1 + zlen l.
Proof. intros. unfold zlen. cbn [length]. lia. Qed.
Lemma zlen_zrepeat : forall A (x : A) n, 0 <= n -> zlen (zrepeat x n) = n.
Proof. intros. unfold zlen, zrepeat. rewrite repeat_length. lia. Qed.
Lemma zlen_ztake : forall A n (l : list A), 0 <= n -> zlen (ztake n l) = Z.min n (zlen l).
Proof. intros. unfold zlen, ztake. rewrite firstn_length. lia. Qed.
Lemma zlen_zdrop : forall A n (l : list A), 0 <= n -> zlen (zdrop n l) = Z.max 0 (zlen l - n).
Proof. intros. unfold zlen, zdrop. rewrite skipn_length. lia. Qed.
Lemma zlen_zsub : forall A off len (l : list A),
  0 <= off -> 0 <= len -> off + len <= zlen l -> zlen (zsub off len l) = len.
Proof. intros. unfold zsub. rewrite zlen_ztake, zlen_zdrop by lia. lia. Qed.
Lemma zlen_zput : forall A (l : list A) off d,
  0 <= off -> off + zlen d <= zlen l -> zlen (zput l off d) = zlen l.
Proof.
  intros. pose proof (zlen_nonneg _ d). unfold zput.
  rewrite !zlen_app, zlen_ztake, zlen_zdrop by lia. lia.
Qed.
Lemma zlen_map : forall A B (f : A -> B) l, zlen (map f l) = zlen l.
Proof. intros. unfold zlen. rewrite map_length. reflexivity. Qed.
Lemma zlen_0_nil : forall A (l : list A), zlen l = 0 -> l = [].
Proof. intros A l H. destruct l; auto. rewrite zlen_cons in H. pose proof (zlen_nonneg _ l). lia. Qed.

Lemma ztake_all : forall A n (l : list A), zlen l <= n -> ztake n l = l.
Proof. intros. unfold ztake. apply firstn_all2. unfold zlen in *. lia. Qed.
Lemma zdrop_all : forall A n (l : list A), zlen l <= n -> zdrop n l = [].
Proof. intros. unfold zdrop. apply skipn_all2. unfold zlen in *. lia. Qed.
Lemma ztake_0 : forall A n (l : list A), n <= 0 -> ztake n l = [].
Proof. intros. unfold ztake. replace (Z.to_nat n) with O by lia. reflexivity. Qed.
Lemma zdrop_0 : forall A n (l : list A), n <= 0 -> zdrop n l = l.
Proof. intros. unfold zdrop. replace (Z.to_nat n) with O by lia. reflexivity. Qed.
Lemma ztake_zdrop : forall A n (l : list A), ztake n l ++ zdrop n l = l.
Proof. intros. unfold ztake, zdrop. apply firstn_skipn. Qed.
Lemma ztake_app_l : forall A n (a b : list A), n <= zlen a -> ztake n (a ++ b) = ztake n a.
Proof.
  intros. unfold ztake. rewrite firstn_app. unfold zlen in *.
  replace (Z.to_nat n - length a)%nat with O by lia. cbn [firstn]. apply app_nil_r.
Qed.
Lemma ztake_app_r : forall A n (a b : list A),
  zlen a <= n -> ztake n (a ++ b) = a ++ ztake (n - zlen a) b.
Proof.
  intros. unfold ztake. rewrite firstn_app. unfold zlen in *.
  rewrite firstn_all2 by lia. f_equal. f_equal. lia.
Qed.
Lemma zdrop_app_l : forall A n (a b : list A), n <= zlen a -> zdrop n (a ++ b) = zdrop n a ++ b.
Proof.
  intros. unfold zdrop. rewrite skipn_app. unfold zlen in *.
  replace (Z.to_nat n - length a)%nat with O by lia. reflexivity.
Qed.
Lemma zdrop_app_r : forall A n (a b : list A), zlen a <= n -> zdrop n (a ++ b) = zdrop (n - zlen a) b.
Proof.
  intros. unfold zdrop. rewrite skipn_app. unfold zlen in *.
  rewrite (skipn_all2 a) by lia. cbn [app]. f_equal. lia.
Qed.
Lemma skipn_skipn' : forall A (m n : nat) (l : list A), skipn m (skipn n l) = skipn (n + m) l.
Proof.
  intros A m n. induction n as [|n IH]; intros l; cbn [skipn Nat.add]; auto.
  destruct l; [apply skipn_nil|]. apply IH.
Qed.
Lemma zdrop_zdrop : forall A m n (l : list A), 0 <= m -> 0 <= n -> zdrop m (zdrop n l) = zdrop (n + m) l.
Proof. intros. unfold zdrop. rewrite skipn_skipn'. f_equal. lia. Qed.
Lemma ztake_ztake : forall A m n (l : list A), ztake m (ztake n l) = ztake (Z.min m n) l.
Proof. intros. unfold ztake. rewrite firstn_firstn. f_equal. lia. Qed.
Lemma ztake_split : forall A n m (l : list A), 0 <= n <= m ->
  ztake m l = ztake n l ++ ztake (m - n) (zdrop n l).
Proof.
  intros A n m l H. rewrite <- (ztake_zdrop _ n l) at 1.
  destruct (Z_le_gt_dec n (zlen l)).
  - rewrite ztake_app_r by (rewrite zlen_ztake; lia). rewrite zlen_ztake by lia.
    f_equal. f_equal. lia.
  - rewrite (zdrop_all _ n) by lia. rewrite app_nil_r.
    rewrite (ztake_all _ (m - n) []) by (rewrite zlen_nil; lia). rewrite app_nil_r.
    rewrite ztake_ztake. f_equal. lia.
Qed.
Lemma zsub_zput_same : forall A (l d : list A) off,
  0 <= off -> off + zlen d <= zlen l -> zsub off (zlen d) (zput l off d) = d.
Proof.
  intros A l d off H H1. unfold zsub, zput. pose proof (zlen_nonneg _ d).
  rewrite zdrop_app_r by (rewrite zlen_ztake; lia).
  rewrite zlen_ztake by lia. rewrite zdrop_0 by lia.
  rewrite ztake_app_l by lia. apply ztake_all. lia.
Qed.

Lemma nth_firstn' : forall A n i (l : list A) x, (i < n)%nat -> nth i (firstn n l) x = nth i l x.
Proof.
  induction n as [|n IH]; intros i l x H; [lia|]. destruct l; [reflexivity|].
  destruct i; [reflexivity|]. cbn [firstn nth]. apply IH. lia.
Qed.
Lemma nth_skipn' : forall A n i (l : list A) x, nth i (skipn n l) x = nth (n + i) l x.
Proof.
  induction n as [|n IH]; intros i l x; [reflexivity|]. destruct l; [destruct i; reflexivity|].
  cbn [skipn nth Nat.add]. apply IH.
Qed.
Lemma znth_zput : forall A (l d : list A) off i x,
  0 <= off -> off + zlen d <= zlen l -> 0 <= i ->
  znth (zput l off d) i x =
  if (off <=? i) && (i <? off + zlen d) then znth d (i - off) x else znth l i x.
Proof.
  intros A l d off i x H H1 Hi. unfold znth, zput, ztake, zdrop, zlen in *.
  destruct ((off <=? i) && (i <? off + Z.of_nat (length d))) eqn:E.
  - rewrite app_nth2 by (rewrite firstn_length; lia). rewrite firstn_length.
    rewrite app_nth1 by lia. f_equal. lia.
  - destruct (Z_lt_le_dec i off).
    + rewrite app_nth1 by (rewrite firstn_length; lia). apply nth_firstn'. lia.
    + rewrite app_nth2 by (rewrite firstn_length; lia). rewrite firstn_length.
      rewrite app_nth2 by lia. rewrite nth_skipn'. f_equal. lia.
Qed.
Lemma znth_zsub : forall A (l : list A) off len i x,
  0 <= off -> 0 <= i < len -> znth (zsub off len l) i x = znth l (off + i) x.
Proof.
  intros A l off len i x H H1. unfold znth, zsub, ztake, zdrop.
  rewrite nth_firstn' by lia. rewrite nth_skipn'. f_equal. lia.
Qed.
Lemma znth_app : forall A (a b : list A) i x, 0 <= i ->
  znth (a ++ b) i x = if i <? zlen a then znth a i x else znth b (i - zlen a) x.
Proof.
  intros A a b i x H. unfold znth, zlen. destruct (i <? Z.of_nat (length a)) eqn:E.
  - apply app_nth1. lia.
  - rewrite app_nth2 by lia. f_equal. lia.
Qed.
Lemma znth_ext : forall A (x : A) l m, zlen l = zlen m ->
  (forall i, 0 <= i < zlen l -> znth l i x = znth m i x) -> l = m.
Proof.
  intros A x l m H H1. unfold zlen, znth in *. apply (nth_ext l m x x); [lia|].
  intros n Hn. specialize (H1 (Z.of_nat n) ltac:(lia)). rewrite Nat2Z.id in H1. exact H1.
Qed.
Lemma znth_zrepeat : forall A (a : A) n i x, 0 <= i < n -> znth (zrepeat a n) i x = a.
Proof.
  intros A a n i x H. unfold znth, zrepeat.
  apply (repeat_spec (Z.to_nat n)). apply nth_In. rewrite repeat_length. lia.
Qed.

(* finite maps as functions on integers *)
Definition fset {B} (f : Z -> B) (k : Z) (v : B) : Z -> B := fun i => if i =? k then v else f i.
Lemma fset_same : forall B (f : Z -> B) k v, fset f k v k = v.
Proof. intros. unfold fset. rewrite Z.eqb_refl. reflexivity. Qed.
Lemma fset_other : forall B (f : Z -> B) k v i, i <> k -> fset f k v i = f i.
Proof. intros. unfold fset. destruct (i =? k) eqn:E; auto. apply Z.eqb_eq in E. congruence. Qed.

Lemma zsub_app_r : forall A off len (a b : list A), zlen a <= off ->
  zsub off len (a ++ b) = zsub (off - zlen a) len b.
Proof. intros. unfold zsub. rewrite zdrop_app_r by lia. reflexivity. Qed.
Lemma zsub_app_l : forall A off len (a b : list A), 0 <= off -> 0 <= len -> off + len <= zlen a ->
  zsub off len (a ++ b) = zsub off len a.
Proof.
  intros. unfold zsub. rewrite zdrop_app_l by lia. apply ztake_app_l. rewrite zlen_zdrop; lia.
Qed.
Lemma zsub_prefix : forall A (a b : list A) n, n = zlen a -> zsub 0 n (a ++ b) = a.
Proof. intros. subst. unfold zsub. rewrite zdrop_0 by lia. rewrite ztake_app_l by lia. apply ztake_all. lia. Qed.
Lemma zsub_mid : forall A (a b c : list A) off n, off = zlen a -> n = zlen b ->
  zsub off n (a ++ b ++ c) = b.
Proof.
  intros. subst. rewrite zsub_app_r by lia. replace (zlen a - zlen a) with 0 by lia.
  apply zsub_prefix. reflexivity.
Qed.
Lemma zput_app_r : forall A (a b d : list A) off, zlen a <= off ->
  zput (a ++ b) off d = a ++ zput b (off - zlen a) d.
Proof.
  intros. unfold zput. pose proof (zlen_nonneg _ d). rewrite ztake_app_r by lia. rewrite zdrop_app_r by lia.
  rewrite <- app_assoc. f_equal. f_equal. f_equal. f_equal. lia.
Qed.
Lemma zput_mid : forall A (a b c d : list A) off, off = zlen a -> zlen b = zlen d ->
  zput (a ++ b ++ c) off d = a ++ d ++ c.
Proof.
  intros A a b c d off Ho Hl. subst off. rewrite zput_app_r by lia. f_equal.
  replace (zlen a - zlen a) with 0 by lia. unfold zput. rewrite ztake_0 by lia. cbn [app].
  f_equal. rewrite zdrop_app_r by lia. apply zdrop_0. lia.
Qed.
Lemma zrepeat_split : forall A (x : A) n m, 0 <= m <= n -> zrepeat x n = zrepeat x m ++ zrepeat x (n - m).
Proof. intros. unfold zrepeat. rewrite <- repeat_app. f_equal. lia. Qed.
Lemma zrepeat_0 : forall A (x : A) n, n <= 0 -> zrepeat x n = [].
Proof. intros. unfold zrepeat. replace (Z.to_nat n) with O by lia. reflexivity. Qed.
Lemma zput_zrepeat : forall A (x : A) n off d, 0 <= off -> off + zlen d <= n ->
  zput (zrepeat x n) off d = zrepeat x off ++ d ++ zrepeat x (n - off - zlen d).
Proof.
  intros A x n off d H H1. pose proof (zlen_nonneg _ d).
  rewrite (zrepeat_split _ x n off) by lia. rewrite (zrepeat_split _ x (n - off) (zlen d)) by lia.
  apply zput_mid; rewrite zlen_zrepeat; lia.
Qed.
Lemma zlen_le_enc : forall n x, zlen (le_enc n x) = Z.of_nat n.
Proof. intros. unfold zlen. rewrite le_enc_length. reflexivity. Qed.

Lemma Forall2_length : forall A B (R : A -> B -> Prop) l m, Forall2 R l m -> length l = length m.
Proof. induction 1; cbn [length]; congruence. Qed.

(* memcmp(a, b) == 0 on byte strings of known length *)
Fixpoint bytes_eqb (a b : bytes) : bool :=
  match a, b with
  | [], [] => true
  | x :: a', y :: b' => (x =? y) && bytes_eqb a' b'
  | _, _ => false
  end.

Lemma bytes_eqb_eq : forall a b, bytes_eqb a b = true <-> a = b.
Proof.
  induction a as [|x a IH]; destruct b as [|y b]; cbn [bytes_eqb]; split; intros H; try discriminate; auto.
  - apply andb_true_iff in H. destruct H as [H1 H2]. apply Z.eqb_eq in H1. apply IH in H2. congruence.
  - inversion H; subst. rewrite Z.eqb_refl. cbn. apply IH. reflexivity.
Qed.
Lemma bytes_eqb_refl : forall a, bytes_eqb a a = true.
Proof. intros. apply bytes_eqb_eq. reflexivity. Qed.


(* reading bytes a write did not touch *)
Lemma zsub_zput_other : forall (l d : bytes) off a n,
  0 <= off -> off + zlen d <= zlen l -> 0 <= a -> 0 <= n -> a + n <= zlen l ->
  a + n <= off \/ off + zlen d <= a -> zsub a n (zput l off d) = zsub a n l.
Proof.
  intros l d off a n H H1 H2 H3 H4 H5. pose proof (zlen_nonneg _ d).
  apply (znth_ext _ 0).
  - rewrite !zlen_zsub; try lia. rewrite zlen_zput; lia.
  - rewrite zlen_zsub by (rewrite ?zlen_zput; lia). intros i Hi.
    rewrite !znth_zsub by lia. rewrite znth_zput by lia.
    replace ((off <=? a + i) && (a + i <? off + zlen d)) with false by lia. reflexivity.
Qed.
(* reading bytes inside a write *)
Lemma zsub_zput_in : forall (l d : bytes) off a n,
  0 <= off -> off + zlen d <= zlen l -> 0 <= n -> off <= a -> a + n <= off + zlen d ->
  zsub a n (zput l off d) = zsub (a - off) n d.
Proof.
  intros l d off a n H H1 H2 H3 H4. apply (znth_ext _ 0).
  - rewrite !zlen_zsub; try lia. rewrite zlen_zput; lia.
  - rewrite zlen_zsub by (rewrite ?zlen_zput; lia). intros i Hi.
    rewrite !znth_zsub by lia. rewrite znth_zput by lia.
    replace ((off <=? a + i) && (a + i <? off + zlen d)) with true by lia. f_equal. lia.
Qed.
Lemma zsub_zsub : forall (l : bytes) off len a n,
  0 <= off -> 0 <= a -> 0 <= n -> a + n <= len -> off + len <= zlen l ->
  zsub a n (zsub off len l) = zsub (off + a) n l.
Proof.
  intros. apply (znth_ext _ 0).
  - rewrite !zlen_zsub; try lia. rewrite zlen_zsub; lia.
  - rewrite zlen_zsub by (rewrite ?zlen_zsub; lia). intros i Hi.
    rewrite !znth_zsub by lia. f_equal. lia.
Qed.
