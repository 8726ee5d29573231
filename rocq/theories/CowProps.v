(* C23: snapshots are isolated.

   The meaning of the operations is CowSpec.v: every file system is a table of
   objects, an operation changes the table of the file system it runs in, a
   snapshot is one more copy of the table.  [runs (sys_init e) tr y]: tr is a
   history of a freshly formatted repository, with any choice of failing calls
   [f] in every operation; [after [fs_new] tr] are the tables that history makes.

   Positive: all answers are the ones the tables allow; a file system depends on
   its own operations only; nothing stored for another one is ever written.
   Refuted: what a change in place keeps of a 64K block after a snapshot, and
   four failures that are not cleaned up. *)
From Verif Require Import Base AddrModel CowModel CowSpec CowProofs CowWalk CowObj CowCopy CowOps CowChange CowFlush CowFrame CowLive CowSys.
Open Scope Z_scope.

(* ---- stated apart ---- *)

(* The table of one file system after its own events only. *)
Definition own_events (k : nat) (a : fs) (tr : list event) : fs :=
  fold_left (fun a (ev : event) => let '(j, o, _, r) := ev in if Nat.eqb j k then next a o r else a) tr a.

(* A list of operations with the calls that fail: the answers. *)
Definition call := (nat * op * list bool * list bool)%type.
Fixpoint play (y : sys) (l : list call) : list (res answer) :=
  match l with
  | [] => []
  | (j, o, f, g) :: l => match sys_step y j o f g with
                         | Some (r, y1) => r :: play y1 l
                         | None => []
                         end
  end.
(* The history of a list of operations and where it ends. *)
Fixpoint trace (y : sys) (l : list (nat * op * list bool)) : option (list event * sys) :=
  match l with
  | [] => Some ([], y)
  | (j, o, f) :: l => match sys_step y j o f [] with
                      | Some (r, y1) => match trace y1 l with
                                        | Some (tr, y2) => Some ((j, o, f, r) :: tr, y2)
                                        | None => None
                                        end
                      | None => None
                      end
  end.
Lemma trace_runs : forall l y tr y2, Forall (fun p => good_op (snd (fst p))) l -> trace y l = Some (tr, y2) -> runs y tr y2.
Proof.
  induction l as [|[[j o] f] l IH]; intros y tr y2 G H; cbn [trace] in H.
  - injection H as <- <-. constructor.
  - inversion G as [|? ? G1 G2]; subst. destruct (sys_step y j o f []) as [[r y1]|] eqn:E; [|discriminate].
    destruct (trace y1 l) as [[tr1 y3]|] eqn:E1; [|discriminate]. injection H as <- <-. econstructor; eauto.
Qed.

Definition ev0 : env := mkEnv (fun a b => 1000 * a + b) (fun _ => [0; 0; 0; 0]) (fun _ _ _ => [99]).
Definition blk : vad := (LT_DATABK, 65536).
Definition ino1 : vad := (LT_INODE, 70656).
Definition ino2 : vad := (LT_INODE, 71680).
Ltac good := unfold good_vad; split; [reflexivity|split; [vm_compute; split; reflexivity|reflexivity]].
Definition patch (d : bytes) : bytes := 9 :: tl d.

(* ---- every answer is the right one ---- *)

(* In every history of any number of file systems, snapshots, unmounts, evictions
   and failing calls, every operation answers as its table allows: a read returns
   the bytes last written; an operation fails only if a call below fails, if what
   it names is not there (or already there), or if its block holds an object that
   was allocated and never written. *)
Theorem C23_answers_follow_the_tables : forall e pre j o f r post y,
  runs (sys_init e) (pre ++ (j, o, f, r) :: post) y ->
  exists a, nth_error (after [fs_new] pre) j = Some a /\ allowed a o f r.
Proof.
  intros e pre j o f r post y H.
  destruct (runs_SI _ _ _ H _ _ (SI_init e)) as [_ P]. eapply P. reflexivity.
Qed.

(* ---- a file system depends on its own operations only ---- *)

Lemma after_own : forall tr al k a, nth_error al k = Some a ->
  nth_error (after al tr) k = Some (own_events k a tr).
Proof.
  induction tr as [|[[[j o] f] r] tr IH]; intros al k a H; cbn [after own_events fold_left]; auto.
  fold (own_events k (if Nat.eqb j k then next a o r else a) tr). apply IH.
  assert (Lk : (k < length al)%nat) by (apply nth_error_Some; congruence).
  unfold next_all. destruct (nth_error al j) as [b|] eqn:Ej.
  - assert (Lj : (j < length al)%nat) by (apply nth_error_Some; congruence).
    rewrite nth_error_app1 by (rewrite len_setnth; auto). rewrite nth_setnth by auto. rewrite (Nat.eqb_sym k j).
    destruct (Nat.eqb_spec j k) as [->|N]; congruence.
  - destruct (Nat.eqb_spec j k) as [->|N]; congruence.
Qed.
Lemma after_app : forall t1 t2 al, after al (t1 ++ t2) = after (after al t1) t2.
Proof. induction t1 as [|[[[j o] f] r] t1 IH]; intros; cbn [after app]; auto. Qed.

(* From a snapshot on, both sides start with the same table and each follows its
   own operations; nothing done on the other side, or anywhere else, shows. *)
Theorem C23_both_sides_independent : forall e pre j f x a mid k o g r post y,
  runs (sys_init e) (pre ++ (j, Fork, f, Ok x) :: mid ++ (k, o, g, r) :: post) y ->
  nth_error (after [fs_new] pre) j = Some a ->
  k = j \/ k = length (after [fs_new] pre) ->
  allowed (own_events k (copy a) mid) o g r.
Proof.
  intros e pre j f x a mid k o g r post y H Ha Hk.
  replace (pre ++ (j, Fork, f, Ok x) :: mid ++ (k, o, g, r) :: post)
    with ((pre ++ (j, Fork, f, Ok x) :: mid) ++ (k, o, g, r) :: post) in H by (rewrite <- app_assoc; reflexivity).
  destruct (C23_answers_follow_the_tables _ _ _ _ _ _ _ _ H) as (b & Hb & A).
  rewrite after_app in Hb. cbn [after] in Hb. unfold next_all in Hb. rewrite Ha in Hb. cbn [next] in Hb.
  assert (Lj : (j < length (after [fs_new] pre))%nat) by (apply nth_error_Some; congruence).
  rewrite (after_own mid _ k (copy a)) in Hb; [injection Hb as <-; exact A|].
  rewrite nth_last, len_setnth. destruct Hk as [->| ->].
  - destruct (Nat.eqb_spec j (length (after [fs_new] pre))); [lia|]. rewrite nth_setnth by auto. rewrite Nat.eqb_refl. auto.
  - rewrite Nat.eqb_refl. auto.
Qed.

(* A snapshot that is only read keeps every object, whatever happens elsewhere. *)
Definition quiet (o : op) : Prop :=
  match o with Write _ _ _ | Over _ _ _ | Claim _ | Spawn _ _ | Remove _ => False | _ => True end.
Lemma own_quiet : forall k mid a, (forall j o f r, In (j, o, f, r) mid -> j = k -> quiet o) ->
  f_cell (own_events k a mid) = f_cell a.
Proof.
  intros k mid. induction mid as [|[[[j o] f] r] mid IH]; intros a Q; auto.
  cbn [own_events fold_left]. fold (own_events k (if Nat.eqb j k then next a o r else a) mid). rewrite IH.
  - destruct (Nat.eqb_spec j k); auto. assert (Qo : quiet o) by (eapply Q; [left; reflexivity|auto]).
    destruct o; cbn in Qo; try contradiction; destruct r; reflexivity.
  - intros. eapply Q; [right; eauto|auto].
Qed.

Theorem C23_snapshot_keeps_everything : forall e pre j f x a mid g r post y v d,
  let n := length (after [fs_new] pre) in
  runs (sys_init e) (pre ++ (j, Fork, f, Ok x) :: mid ++ (n, Read v, g, r) :: post) y ->
  nth_error (after [fs_new] pre) j = Some a -> f_cell a v = Val d ->
  (forall i o f' r', In (i, o, f', r') mid -> i = n -> quiet o) ->
  calm g -> r = Ok (ABytes d).
Proof.
  intros e pre j f x a mid g r post y v d n H Ha Hc Q Cg.
  pose proof (C23_both_sides_independent _ _ _ _ _ _ _ _ _ _ _ _ _ H Ha (or_intror eq_refl)) as A.
  pose proof (own_quiet n mid (copy a) Q) as E.
  assert (Ec : f_cell (own_events n (copy a) mid) v = Val d) by (rewrite E; exact Hc).
  unfold allowed in A. fold n in A. rewrite Ec in A. destruct r as [z| |].
  - destruct A as (d0 & -> & [A|A]); congruence.
  - exfalso. eapply A; eauto.
  - tauto.
Qed.

(* A history that meets the hypotheses: an inode made, a snapshot, both written on
   both sides, unmounts, one more snapshot of the live side. *)
Definition story : list (nat * op * list bool) :=
  [(0%nat, Spawn ino1 [1; 2; 3; 4], []); (0%nat, Spawn ino2 [5; 6; 7; 8], []); (0%nat, Spawn blk [1; 1; 1; 1], []);
   (0%nat, Fork, []); (0%nat, Write false ino1 patch, []); (0%nat, Remove blk, []); (0%nat, Remount, []);
   (1%nat, Read ino1, []); (1%nat, Read blk, []); (0%nat, Read ino1, []); (0%nat, Read blk, []);
   (1%nat, Over false ino2 [7; 7; 7; 7], []); (1%nat, Remount, []); (0%nat, Read ino2, []); (0%nat, Fork, []);
   (0%nat, Remove ino1, []); (2%nat, Read ino1, []); (1%nat, Read ino1, []); (1%nat, Read ino2, [])].
Example C23_story :
  exists tr y, trace (sys_init ev0) story = Some (tr, y) /\ runs (sys_init ev0) tr y /\
  map (fun ev : event => snd ev) tr =
    [Ok ANone; Ok ANone; Ok ANone; Ok (ASnap (match nth 3 (map (fun ev : event => snd ev) tr) Er with Ok (ASnap a) => a | _ => 0 end));
     Ok ANone; Ok ANone; Ok ANone;
     Ok (ABytes [1; 2; 3; 4]); Ok (ABytes [1; 1; 1; 1]); Ok (ABytes [9; 2; 3; 4]); Er;
     Ok ANone; Ok ANone; Ok (ABytes [5; 6; 7; 8]);
     Ok (ASnap (match nth 14 (map (fun ev : event => snd ev) tr) Er with Ok (ASnap a) => a | _ => 0 end));
     Ok ANone; Ok (ABytes [9; 2; 3; 4]); Ok (ABytes [1; 2; 3; 4]); Ok (ABytes [7; 7; 7; 7])].
Proof.
  destruct (trace (sys_init ev0) story) as [[tr y]|] eqn:E; [|vm_compute in E; discriminate].
  exists tr, y. split; auto. split.
  - eapply trace_runs; [|exact E]. repeat constructor; cbn; lia.
  - assert (M : option_map (fun p => map (fun ev : event => snd ev) (fst p)) (trace (sys_init ev0) story)
        = Some (map (fun ev : event => snd ev) tr)) by (rewrite E; reflexivity).
    set (m := map (fun ev : event => snd ev) tr) in *. clearbody m. clear E. vm_compute in M. injection M as <-. reflexivity.
Qed.
Example C23_story_tables :
  exists tr y, trace (sys_init ev0) story = Some (tr, y) /\
  map (fun a => (f_cell a ino1, f_cell a ino2, f_cell a blk)) (after [fs_new] tr) =
    [(Free, Val [5; 6; 7; 8], Free); (Val [1; 2; 3; 4], Val [7; 7; 7; 7], Val [1; 1; 1; 1]);
     (Val [9; 2; 3; 4], Val [5; 6; 7; 8], Free)].
Proof.
  destruct (trace (sys_init ev0) story) as [[tr y]|] eqn:E; [|vm_compute in E; discriminate].
  exists tr, y. split; auto.
  assert (M : option_map (fun p => map (fun a => (f_cell a ino1, f_cell a ino2, f_cell a blk)) (after [fs_new] (fst p)))
       (trace (sys_init ev0) story) =
    Some [(Free, Val [5; 6; 7; 8], Free); (Val [1; 2; 3; 4], Val [7; 7; 7; 7], Val [1; 1; 1; 1]);
     (Val [9; 2; 3; 4], Val [5; 6; 7; 8], Free)]) by (vm_compute; reflexivity).
  rewrite E in M. injection M as M. exact M.
Qed.

(* ---- what is written where ---- *)

(* From any state at all, with any failures, an operation writes only to the
   volume and the super block its file system is bound to. *)
Theorem C23_writes_own_volume_only : forall y j o f g r y1 i,
  sys_step y j o f g = Some (r, y1) -> nth_error (y_inst y) j = Some i ->
  (forall l k, l <> sb_lv (i_sb i) -> get (y_sU y1) (l :: k) = get (y_sU y) (l :: k) /\
                                      get (y_sV y1) (l :: k) = get (y_sV y) (l :: k)) /\
  (forall b, b <> i_sid i -> b < y_nx y -> get (y_sS y1) [b] = get (y_sS y) [b]) /\
  y_nx y <= y_nx y1 /\
  (forall k i', k <> j -> nth_error (y_inst y) k = Some i' -> nth_error (y_inst y1) k = Some i').
Proof.
  intros y j o f g r y1 i H Hi. unfold sys_step in H. rewrite Hi in H.
  assert (Lj : (j < length (y_inst y))%nat) by (apply nth_error_Some; congruence).
  pose proof (only_op o (enter y i f g)) as [A1 A2 A3 A4 A5].
  destruct (run_op o (enter y i f g)) as [r1 s1]. cbn [snd] in *.
  assert (K : forall k i', k <> j -> nth_error (y_inst y) k = Some i' -> nth_error (y_inst (leave y j s1)) k = Some i').
  { intros k i' N Hk. cbn [y_inst leave]. rewrite nth_upd by auto. destruct (Nat.eqb_spec k j); congruence. }
  assert (E : y_sU y1 = sU s1 /\ y_sV y1 = sV s1 /\ y_sS y1 = sS s1 /\ y_nx y1 = nx s1 /\
     (forall k i', k <> j -> nth_error (y_inst y) k = Some i' -> nth_error (y_inst y1) k = Some i')).
  { injection H as _ <-. destruct r1 as [[d| |b]| |]; cbn; try (split; [|split; [|split; [|split]]]; auto; fail).
    destruct (get (sS s1) [b]); cbn; try (split; [|split; [|split; [|split]]]; auto; fail).
    split; [|split; [|split; [|split]]]; auto. intros k i' N Hk. specialize (K k i' N Hk). cbn in K.
    rewrite nth_error_app1; auto. apply nth_error_Some. congruence. }
  destruct E as (-> & -> & -> & -> & E). split; [|split; [|split]]; auto.
Qed.

(* A write in the live file system after a snapshot stores the new bytes in a new
   volume; the cell of the old volume stays. *)
Example C23_writes_example :
  match trace (sys_init ev0) (firstn 5 story) with
  | Some (_, y) =>
    match sys_step y 0 (FlushV ino1) [] [] with
    | Some (r, y1) => (r, get (y_sV y1) (1 :: vkey ino1), map fst (y_sV y), map fst (y_sV y1))
    | None => (Er, None, [], [])
    end
  | None => (Er, None, [], [])
  end = (Ok ANone, Some (71536, [1; 2; 3; 4]),
         [1 :: vkey ino1; 1 :: vkey ino2; 1 :: vkey blk], [15 :: vkey ino1; 1 :: vkey ino1; 1 :: vkey ino2; 1 :: vkey blk]).
Proof. vm_compute. reflexivity. Qed.

(* ---- changing a block in place ---- *)

(* If the object is in memory, changing part of it keeps the rest, snapshot or
   not: from there on everything answers as if its bytes were f d. *)
Theorem C23_change_in_memory_keeps_the_rest : forall e pre y j i c a rm v h d fl x y1 mid k o g r post y2,
  runs (sys_init e) pre y ->
  nth_error (y_inst y) j = Some i -> get (i_cV i) (vkey v) = Some c ->
  nth_error (after [fs_new] pre) j = Some a -> f_cell a v = Val d -> good_vad v ->
  sys_step y j (Write rm v h) fl [] = Some (Ok x, y1) ->
  runs y1 (mid ++ (k, o, g, r) :: post) y2 ->
  exists b, nth_error (after (setnth (after [fs_new] pre) j (put_fs a v (Val (h d)) true)) mid) k = Some b /\ allowed b o g r.
Proof.
  intros e pre y j i c a rm v h d fl x y1 mid k o g r post y2 H Hi Hc Ha Hv G ST RU.
  destruct (runs_SI _ _ _ H _ _ (SI_init e)) as [(F & S) _]. set (al := after [fs_new] pre) in *.
  destruct (SI_step F y al j (Write rm v h) fl (Ok x) y1 S G ST) as (a' & Ha' & _ & F' & S').
  rewrite Ha in Ha'. injection Ha' as <-.
  (* the stronger table for j *)
  assert (S2 : exists F2, SI F2 y1 (setnth al j (put_fs a v (Val (h d)) true))).
  { destruct S as [LEN INV LVS].
    assert (Lj : (j < length al)%nat) by (apply nth_error_Some; congruence).
    assert (Lj' : (j < length (y_inst y))%nat) by (apply nth_error_Some; congruence).
    destruct (INV _ _ _ Hi Ha) as (T & I0). assert (I : Inv F T a (enter y i fl [])) by (exact (Inv_oF _ _ _ _ fl I0)).
    unfold sys_step in ST. rewrite Hi in ST. cbn [run_op] in ST. unfold bind in ST.
    destruct (op_write rm v h (enter y i fl [])) as [r1 s1] eqn:E.
    pose proof (op_write_ok _ _ _ _ _ _ _ _ _ I G E) as P. destruct r1 as [u| |]; try discriminate.
    destruct P as (T1 & d1 & P1 & _ & _ & P2). cbn [ret] in ST. injection ST as <- <-.
    assert (d1 = d). { rewrite (P2 c) by exact Hc. pose proof (oi_val _ _ _ _ _ (iv_o _ _ _ _ I) v d G Hv) as Q.
      replace (cV (enter y i fl [])) with (i_cV i) in Q by reflexivity. rewrite Hc in Q. apply Q. }
    subst d1. pose proof (only_op (Write rm v h) (enter y i fl [])) as ON. cbn [run_op] in ON. unfold bind in ON. rewrite E in ON.
    cbn [snd ret] in ON. destruct ON as [ON1 ON2 ON3 ON4 ON5].
    pose proof (me_lv _ _ (mm_write rm v h (enter y i fl []))) as ML. rewrite E in ML. cbn [snd] in ML.
    assert (NLF : ~ F (lv (enter y i fl []))) by (apply (ni_lvF _ _ _ _ _ _ _ (iv_n _ _ _ _ I))).
    assert (NLN : lv (enter y i fl []) < nx (enter y i fl [])) by (apply (ni_lvn _ _ _ _ _ _ _ (iv_n _ _ _ _ I))).
    assert (NTH : forall q, nth_error (y_inst (leave y j s1)) q = if Nat.eqb q j then Some (inst_of s1) else nth_error (y_inst y) q).
    { intros q. cbn [y_inst leave]. apply nth_upd; auto. }
    exists F. constructor.
    - rewrite len_setnth. cbn [y_inst leave]. rewrite len_upd; auto.
    - intros q i' b' Q1 Q2. rewrite NTH in Q1. rewrite nth_setnth in Q2 by auto. destruct (Nat.eqb_spec q j).
      + injection Q1 as <-. injection Q2 as <-. exists T1.
        assert (OB : oB s1 = []) by (apply (iv_b _ _ _ _ P1)). rewrite (enter_leave y j s1 OB). apply Inv_oF; auto.
      + destruct (INV _ _ _ Q1 Q2) as (T' & I'). exists T'.
        apply (Inv_others F T' b' (enter y i' [] []) (enter (leave y j s1) i' [] []) (lv (enter y i fl [])) F I'); auto;
          cbn [enter leave nx sU sV y_nx y_sU y_sV] in *; auto.
        * intros R. apply (LVS j q i i'); auto.
        * lia.
    - intros k1 k2 i1 i2 N H1 H2. rewrite NTH in H1, H2. change (lv s1) with (ilv (inst_of s1)) in ML.
      change (lv (enter y i fl [])) with (ilv i) in ML.
      destruct (Nat.eqb_spec k1 j); destruct (Nat.eqb_spec k2 j); try congruence.
      + injection H1 as <-. rewrite ML. subst. eapply (LVS j k2); eauto.
      + injection H2 as <-. rewrite ML. subst. eapply (LVS k1 j); eauto.
      + eapply (LVS k1 k2); eauto. }
  destruct S2 as (F2 & S2). destruct (runs_SI _ _ _ RU _ _ S2) as [_ P]. eapply P. reflexivity.
Qed.
(* ... and here it is, through an unmount *)
Example C23_change_in_memory_example :
  play (sys_init ev0) [(0%nat, Spawn blk [1; 2; 3; 4], [], []); (0%nat, Fork, [], []); (0%nat, Write true blk patch, [], []);
                       (0%nat, Remount, [], []); (0%nat, Read blk, [], []); (1%nat, Read blk, [], [])]
  = [Ok ANone; Ok (ASnap 7); Ok ANone; Ok ANone; Ok (ABytes [9; 2; 3; 4]); Ok (ABytes [1; 2; 3; 4])].
Proof. vm_compute. reflexivity. Qed.

(* If it is not in memory, the rest is lost: after a snapshot, overwriting one
   byte of a 64K block turns the other bytes into the contents of a hole.  No call
   fails; the snapshot still has the bytes. *)
Theorem C23_change_in_place_refuted : exists e v d h x,
  good_vad v /\
  play (sys_init e) [(0%nat, Spawn v d, [], []); (0%nat, Fork, [], []); (0%nat, EvictV v, [], []);
                     (0%nat, Write true v h, [], []); (0%nat, Read v, [], []); (1%nat, Read v, [], [])]
  = [Ok ANone; Ok (ASnap 7); Ok ANone; Ok ANone; Ok (ABytes x); Ok (ABytes d)] /\
  x <> h d /\ h = patch.
Proof.
  exists ev0, blk, [1; 2; 3; 4], patch, [9; 0; 0; 0]. split; [good|]. split; [vm_compute; reflexivity|]. split; [discriminate|reflexivity].
Qed.

(* ---- failures that are not cleaned up ---- *)

(* A snapshot fails at its second super block: writes after that succeed and read
   back, and are gone at the next mount. *)
Theorem C23_failed_snapshot_refuted : exists e v d h,
  good_vad v /\ h d <> d /\
  play (sys_init e) [(0%nat, Spawn v d, [], []); (0%nat, Fork, [], [true]); (0%nat, Write false v h, [], []);
                     (0%nat, Read v, [], []); (0%nat, Remount, [], []); (0%nat, Read v, [], [])]
  = [Ok ANone; Er; Ok ANone; Ok (ABytes (h d)); Ok ANone; Ok (ABytes d)].
Proof. exists ev0, ino1, [1; 2; 3; 4], patch. split; [good|]. split; [discriminate|]. vm_compute. reflexivity. Qed.

(* Copying a map leaf fails after the new leaf was put in memory: objects that
   were there can no longer be read until the next mount. *)
Theorem C23_failed_map_copy_refuted : exists e v d h g,
  good_vad v /\
  play (sys_init e) [(0%nat, Spawn v d, [], []); (0%nat, Fork, [], []); (0%nat, Remount, [], []);
                     (0%nat, Read v, [], []); (0%nat, EvictV v, [], []);
                     (0%nat, Write false v h, [], g); (0%nat, Read v, [], []); (1%nat, Read v, [], [])]
  = [Ok ANone; Ok (ASnap 7); Ok ANone; Ok (ABytes d); Ok ANone; Er; Er; Ok (ABytes d)].
Proof.
  exists ev0, ino1, [1; 2; 3; 4], patch, [false; false; false; false; false; true]. split; [good|]. vm_compute. reflexivity.
Qed.

(* Remembering where a copied map leaf is fails for lack of memory, and the error
   is dropped: the write succeeds, and a later read returns the old bytes. *)
Theorem C23_lost_address_refuted : exists e v d h g,
  good_vad v /\ h d <> d /\
  play (sys_init e) [(0%nat, Spawn v d, [], []); (0%nat, Fork, [], []); (0%nat, Remount, [], []); (0%nat, Read v, [], []);
                     (0%nat, Write false v h, [], g); (0%nat, Read v, [], []); (0%nat, FlushV v, [], []);
                     (0%nat, EvictV v, [], []); (0%nat, Read v, [], [])]
  = [Ok ANone; Ok (ASnap 7); Ok ANone; Ok (ABytes d); Ok ANone; Ok (ABytes (h d)); Ok ANone; Ok ANone; Ok (ABytes d)].
Proof.
  exists ev0, ino1, [1; 2; 3; 4], patch, [false; false; false; false; true]. split; [good|]. split; [discriminate|]. vm_compute. reflexivity.
Qed.

(* One failing load while a block is copied: the write fails cleanly, but an object
   of the same block is left dirty without a home, and writing it out later hits an
   assertion; so does everything that writes all out. *)
Theorem C23_failed_block_copy_refuted : exists e v w d1 d2 h f,
  good_vad v /\ good_vad w /\
  play (sys_init e) [(0%nat, Spawn v d1, [], []); (0%nat, Spawn w d2, [], []); (0%nat, Fork, [], []); (0%nat, EvictV w, [], []);
                     (0%nat, Write false w h, f, []); (0%nat, FlushV v, [], []); (0%nat, Remount, [], [])]
  = [Ok ANone; Ok ANone; Ok (ASnap 7); Ok ANone; Er; Bad; Bad].
Proof.
  exists ev0, ino1, ino2, [1; 2; 3; 4], [5; 6; 7; 8], patch, (repeat false 16 ++ [true]).
  split; [good|]. split; [good|]. vm_compute. reflexivity.
Qed.

Print Assumptions C23_answers_follow_the_tables.
Print Assumptions C23_both_sides_independent.
Print Assumptions C23_snapshot_keeps_everything.
Print Assumptions C23_writes_own_volume_only.
Print Assumptions C23_change_in_memory_keeps_the_rest.
Print Assumptions C23_change_in_place_refuted.
Print Assumptions C23_failed_snapshot_refuted.
Print Assumptions C23_failed_map_copy_refuted.
Print Assumptions C23_lost_address_refuted.
Print Assumptions C23_failed_block_copy_refuted.
