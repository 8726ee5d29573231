(* A small file-system for the examples of PackProps: one map node per
   height, a leaf with two neighbouring blocks in use, a super-block, a boot record. *)
From Verif Require Import Base AddrModel WalkModel PackModel PackSpec PackProofs.
From Coq Require Import ZifyBool.

Definition t_lvid : bytes := repeat 5 16.
Definition t_maps : lsid := mkLsid t_lvid 65536 0 2 4 9.   (* holds super, nodes and leaf *)
Definition t_data : lsid := mkLsid t_lvid 65536 1 2 0 9.   (* holds the blocks *)
Definition t_node (h : nat) : link := mkLink (mkLaddr t_maps (Z.of_nat h * 64) 64) [].
Definition t_blk1 : laddr := mkLaddr t_data 0 100.
Definition t_blk2 : laddr := mkLaddr t_data 100 28.

(* digest: the first byte *)
Definition t_hash (x : bytes) : bytes := hd 0 x :: repeat 0 31.
Definition t_env : env := mkEnv t_hash (fun _ => 1)
  (fun h _ _ => if Nat.leb h 4 then Some [Some (t_node (h - 1)); None] else None)
  (fun _ _ => Some [mkSlot 100 t_blk1; mkSlot 0 t_blk1; mkSlot 28 t_blk2])
  (fun b => if hd 0 b =? 9 then Some b else None) (fun b => b).

Definition t_boot : bytes := 9 :: repeat 0 1023.
Definition t_vol : vol :=
  mkVol [None; Some (t_node 4)] (mkLaddr t_maps 512 128) (mkCaddr (t_hash t_boot) 1024 CT_BOOTREC).
Definition t_seg (x : Z) : seg := mkSeg 65536 (fun p => if p =? 0 then x else 0).
(* its repository: x is the first byte of the first block, P the archive objects *)
Definition t_rep (x : Z) (P : caddr -> option bytes) : repo := mkRepo
  (fun l => if lsid_eqb l t_maps then Some (t_seg 7) else if lsid_eqb l t_data then Some (t_seg x) else None)
  P
  (fun h => if bytes_eqb h (t_hash t_boot) then Some t_boot else None)
  (fun c => caddr_eqb c (v_boot t_vol)).
Definition t_repo : repo := t_rep 8 (fun _ => None).

(* an empty repository that was given the archive objects of r *)
Definition packs_only (r : repo) : repo := mkRepo (fun _ => None) (r_packs r) (fun _ => None) (fun _ => false).

Lemma seg_reads : forall R a g, r_segs R (la_lsid a) = Some g -> 0 <= la_pos a -> la_end a <= sg_size g ->
  reads R a (sread g (la_pos a) (la_len a)).
Proof.
  intros R a g G P EN. unfold sread. split; [rewrite map_length, seq_length; auto|].
  intros i Hi. rewrite map_length, seq_length in Hi. unfold seg_byte. rewrite G. unfold la_end in EN.
  replace ((0 <=? la_pos a + Z.of_nat i) && (la_pos a + Z.of_nat i <? sg_size g)) with true by lia.
  rewrite nth_indep with (d' := sg_at g (la_pos a + Z.of_nat 0)) by (rewrite map_length, seq_length; auto).
  rewrite (map_nth (fun i => sg_at g (la_pos a + Z.of_nat i))).
  rewrite seq_nth by auto. reflexivity.
Qed.

Section Toy.
Variables (x0 : Z) (P0 : caddr -> option bytes).
Notation R0 := (t_rep x0 P0).

Lemma t_node_at : forall h lk, node_at t_env R0 t_vol h lk -> lk = t_node h /\ (h <= 4)%nat.
Proof.
  intros h lk N. induction N as [lk IN|h lk b sl c N IH RB SL IN].
  - destruct IN as [X|[X|[]]]; [discriminate|]. inversion X. auto.
  - destruct IH as (_ & L). cbn [t_env e_node] in SL.
    destruct (Nat.leb (S h) 4); [|discriminate]. inversion SL; subst sl. clear SL.
    destruct IN as [X|[X|[]]]; [|discriminate]. inversion X. split; [|lia]. f_equal. lia.
Qed.

Lemma t_live : forall a, live t_env R0 t_vol a ->
  a = v_super t_vol \/ a = t_blk1 \/ a = t_blk2 \/ exists h, (h <= 4)%nat /\ a = lk_addr (t_node h).
Proof.
  intros a L. destruct L as [|h lk N|lk b sl x N RB SL IN U]; auto.
  - destruct (t_node_at _ _ N) as (-> & L). right; right; right. exists h. auto.
  - cbn in SL. inversion SL; subst sl. destruct IN as [X|[X|[X|[]]]]; subst x; cbn in *; auto; lia.
Qed.

Lemma t_boot_ok : boot_ok t_env R0 (v_boot t_vol) t_boot.
Proof.
  split; [apply caddr_eqb_refl|]. split; [|split; [reflexivity|split; [reflexivity|]]].
  - exists t_boot. split; reflexivity.
  - exists t_boot. split; reflexivity.
Qed.

Lemma t_sound : sound t_env R0 t_vol.
Proof.
  constructor.
  - intros l g. cbn. destruct (lsid_eqb l t_maps) eqn:X.
    { intros H. inversion H. apply lsid_eqb_eq in X. subst l. split; vm_compute; [auto|split; discriminate]. }
    destruct (lsid_eqb l t_data) eqn:Y; [|discriminate].
    intros H. inversion H. apply lsid_eqb_eq in Y. subst l. split; vm_compute; [auto|split; discriminate].
  - intros a L. apply t_live in L. destruct L as [->|[->|[->|(h & H & ->)]]].
    + split; [unfold proper; cbn; repeat split; lia|]. eexists. apply seg_reads with (g := t_seg 7); cbn; auto; lia.
    + split; [unfold proper; cbn; repeat split; lia|]. eexists. apply seg_reads with (g := t_seg x0); cbn; auto; lia.
    + split; [unfold proper; cbn; repeat split; lia|]. eexists. apply seg_reads with (g := t_seg x0); cbn; auto; lia.
    + split; [unfold proper; cbn; repeat split; lia|]. eexists. apply seg_reads with (g := t_seg 7); cbn; auto; unfold la_end; cbn; lia.
  - intros h lk b N _. destruct (t_node_at _ _ N) as (_ & HL). eexists. split.
    { cbn [t_env e_node]. replace (Nat.leb (S h) 4) with true by (symmetry; apply Nat.leb_le; lia). reflexivity. }
    intros i j c L H. destruct i as [|i]; [eexists; reflexivity|].
    destruct j as [|[|j]]; [lia|lia|]. cbn in H. destruct j; discriminate.
  - intros lk b _ _. eexists. reflexivity.
  - exists t_boot. apply t_boot_ok.
Qed.

(* and these are its addresses *)
Lemma t_nodes : forall h, (h <= 4)%nat -> node_at t_env R0 t_vol h (t_node h).
Proof.
  intros h H. assert (N : forall k, (k <= 4)%nat -> node_at t_env R0 t_vol (4 - k) (t_node (4 - k))).
  { induction k as [|k IH]; intros K; [apply na_root; right; left; reflexivity|].
    specialize (IH ltac:(lia)). replace (4 - k)%nat with (S (4 - S k)) in IH by lia.
    eapply na_child; [exact IH| | |].
    - apply (seg_reads R0 (lk_addr (t_node (S (4 - S k)))) (t_seg 7)); [reflexivity|cbn [t_node lk_addr la_pos]; lia|].
      unfold la_end; cbn [t_node lk_addr la_pos la_len t_seg sg_size]; lia.
    - cbn [t_env e_node]. replace (Nat.leb (S (4 - S k)) 4) with true by (symmetry; apply Nat.leb_le; lia). reflexivity.
    - left. f_equal. f_equal. lia. }
  specialize (N (4 - h)%nat ltac:(lia)). replace (4 - (4 - h))%nat with h in N by lia. exact N.
Qed.
Lemma t_live_blk1 : live t_env R0 t_vol t_blk1.
Proof.
  change t_blk1 with (sl_addr (mkSlot 100 t_blk1)).
  eapply lv_block; [apply (t_nodes 0); lia| |reflexivity|left; reflexivity|cbn; lia].
  apply (seg_reads R0 (lk_addr (t_node 0)) (t_seg 7)); [reflexivity|cbn; lia|cbn; unfold la_end; cbn; lia].
Qed.
End Toy.

Lemma t_packs_ok : packs_ok t_env t_repo.
Proof. intros c e H. discriminate. Qed.

Definition t_flat (x : bytes) : Prop := forall i, (1 <= i < length x)%nat -> nth i x 0 = 0.
Lemma t_flat_eq : forall x y, t_flat x -> t_flat y -> length x = length y -> hd 0 x = hd 0 y -> x = y.
Proof.
  intros x y FX FY L H. apply (nth_ext _ _ 0 0); auto. intros i Hi.
  destruct i as [|i].
  - destruct x, y; cbn in *; auto; lia.
  - rewrite FX, FY by lia. auto.
Qed.

Lemma t_clash_free : forall x0 P, (forall c e, P c = Some e -> t_flat e) ->
  clash_free t_env (t_rep x0 P) t_vol.
Proof.
  intros x0 P HP. set (R := t_rep x0 P).
  assert (G : forall x, stored t_env R t_vol x -> t_flat x).
  { intros x [(c & H)|[(a & L & RB)|H]].
    - eapply HP; eauto.
    - intros i Hi. pose proof (RB 0%nat ltac:(lia)) as Z0. pose proof (RB i ltac:(lia)) as ZI.
      unfold seg_byte, R in Z0, ZI. cbn [r_segs t_rep] in Z0, ZI.
      destruct (lsid_eqb (la_lsid a) t_maps); [|destruct (lsid_eqb (la_lsid a) t_data); [|discriminate]];
        cbn [t_seg sg_size sg_at] in Z0, ZI;
        destruct ((0 <=? la_pos a + Z.of_nat 0) && (la_pos a + Z.of_nat 0 <? 65536)) eqn:C0; try discriminate;
        destruct ((0 <=? la_pos a + Z.of_nat i) && (la_pos a + Z.of_nat i <? 65536)); try discriminate;
        replace (la_pos a + Z.of_nat i =? 0) with false in ZI by lia; inversion ZI; auto.
    - assert (HB : x = t_boot).
      { destruct H as (_ & (e & HE & HF) & _). cbn in HE. inversion HE; subst e. rewrite <- HF. reflexivity. }
      subst x. intros i Hi. destruct i as [|i]; [lia|]. unfold t_boot. cbn [nth]. apply nth_repeat. }
  intros x y SX SY L H. apply t_flat_eq; auto. cbn in H. unfold t_hash in H. inversion H; auto.
Qed.

Lemma t_digests : digests t_env.
Proof. split; intros; cbn; [reflexivity|lia]. Qed.

Lemma t_typed : typed t_env t_vol.
Proof.
  constructor.
  - unfold proper; cbn; repeat split; lia.
  - intros lk [X|[X|[]]]; [discriminate|]. inversion X. unfold proper; cbn; repeat split; lia.
  - intros h lk b sl c H IN. cbn [t_env e_node] in H. destruct (Nat.leb h 4) eqn:L; [|discriminate].
    apply Nat.leb_le in L. inversion H; subst sl. destruct IN as [X|[X|[]]]; [|discriminate]. inversion X.
    unfold proper; cbn [t_node lk_addr la_lsid la_pos la_len t_maps ls_lvid ls_lsize ls_vindex ls_vspace ls_height ls_ltype].
    split; [reflexivity|]. unfold LT_BOOTREC. lia.
  - intros lk b sl x H IN U. cbn in H. inversion H; subst sl.
    destruct IN as [X|[X|[X|[]]]]; subst x; cbn in U; [| lia |]; unfold proper; cbn; repeat split; lia.
Qed.

Lemma t_boot_stable : boot_stable t_env t_repo t_vol.
Proof.
  intros e br _ H. cbn in H. destruct (hd 0 (firstn 1024 e) =? 9) eqn:X; cbn in X; [|].
  - cbn [t_env e_benc]. cbn in H. destruct (hd 0 _ =? 9) in H; inversion H; auto.
  - destruct (hd 0 _ =? 9) in H; inversion H; auto.
Qed.
