(* Two file-systems in one repository for the examples of DelfsProps: a base, and a
   clone of it whose leaf still names a block of the base.  Each has two object spaces,
   one map node per height and a segment for each of them. *)
From Verif Require Import Base AddrModel WalkModel PackModel PackSpec PackProofs PackToy DelfsModel DelfsSpec DelfsProofs.
From Coq Require Import ZifyBool.

Definition u_lvid (c : bool) : bytes := repeat (if c then 6 else 5) 16.
Definition u_seg (c : bool) (s h : nat) : lsid := mkLsid (u_lvid c) 65536 0 (Z.of_nat s) (Z.of_nat h) 9.
Definition u_data (c : bool) (s : nat) : lsid := mkLsid (u_lvid c) 65536 0 (Z.of_nat s) 0 10.
Definition u_top (c : bool) : lsid := mkLsid (u_lvid c) 65536 0 0 5 4.
Definition u_node (c : bool) (s h : nat) : link := mkLink (mkLaddr (u_seg c s h) 0 64) [].
Definition u_blk (c : bool) (s : nat) (p n : Z) : laddr := mkLaddr (u_data c s) p n.

(* a node tells by its first byte that it was written; a leaf has three slots, the
   second not in use, and the third of a clone's names a block of the base *)
Definition u_isclone (lk : link) : bool := hd 0 (ls_lvid (la_lsid (lk_addr lk))) =? 6.
Definition u_space (lk : link) : nat := if ls_vspace (la_lsid (lk_addr lk)) =? 1 then 1%nat else 0%nat.
Definition u_slots (c : bool) (s : nat) : list slot :=
  [mkSlot 100 (u_blk c s 0 100); mkSlot 0 (u_blk c s 0 100); mkSlot 28 (u_blk false s 100 28)].
Definition u_env : env := mkEnv t_hash (fun _ => 1)
  (fun h lk b => if (hd 0 b =? 7) && Nat.leb h 4
                 then Some [Some (u_node (u_isclone lk) (u_space lk) (h - 1)); None] else None)
  (fun lk b => if hd 0 b =? 7 then Some (u_slots (u_isclone lk) (u_space lk)) else None)
  (fun b => if 8 <? hd 0 b then Some b else None) (fun b => b).

Definition u_boot (c : bool) : bytes := (if c then 10 else 9) :: repeat 0 1023.
Definition u_vol (c : bool) : vol :=
  mkVol [Some (u_node c 0 4); Some (u_node c 1 4)] (mkLaddr (u_top c) 0 128)
        (mkCaddr (t_hash (u_boot c)) 1024 CT_BOOTREC).

Definition u_maps (c : bool) : list lsid :=
  u_top c :: flat_map (fun s => map (u_seg c s) (seq 0 5)) [0%nat; 1%nat].
Definition u_datas (c : bool) : list lsid := [u_data c 0; u_data c 1].
Definition u_has (l : lsid) (ls : list lsid) : bool := existsb (lsid_eqb l) ls.

(* the extra segment of the volume is one that no slot names *)
Definition u_spare (c : bool) : lsid := mkLsid (u_lvid c) 65536 8 1 0 10.
Definition u_repo : repo := mkRepo
  (fun l => if u_has l (u_maps false ++ u_maps true) then Some (t_seg 7)
            else if u_has l (u_datas false ++ u_datas true) then Some (t_seg 8)
            else if lsid_eqb l (u_spare true) then Some (t_seg 3) else None)
  (fun _ => None)
  (fun h => if bytes_eqb h (t_hash (u_boot false)) then Some (u_boot false)
            else if bytes_eqb h (t_hash (u_boot true)) then Some (u_boot true) else None)
  (fun c => caddr_eqb c (v_boot (u_vol false)) || caddr_eqb c (v_boot (u_vol true))).

Section Toy.
Variable c : bool.
Notation R0 := u_repo.
Notation V := (u_vol c).

Lemma u_clone : forall s h, u_isclone (u_node c s h) = c.
Proof. intros s h. unfold u_isclone, u_node. destruct c; reflexivity. Qed.
Lemma u_space_of : forall s h, (s < 2)%nat -> u_space (u_node c s h) = s.
Proof. intros s h L. unfold u_space, u_node. cbn. destruct s as [|[|s]]; [reflexivity|reflexivity|lia]. Qed.

Lemma u_segs : forall s h, (s < 2)%nat -> (h <= 4)%nat -> r_segs R0 (u_seg c s h) = Some (t_seg 7).
Proof.
  intros s h SB H. destruct s as [|[|s]]; [| |lia];
  destruct h as [|[|[|[|[|h]]]]]; try lia; destruct c; vm_compute; reflexivity.
Qed.
Lemma u_dats : forall c' s, (s < 2)%nat -> r_segs R0 (u_data c' s) = Some (t_seg 8).
Proof.
  intros c' s SB. destruct s as [|[|s]]; [| |lia]; destruct c'; vm_compute; reflexivity.
Qed.

Lemma u_node_seg : forall s h, (s < 2)%nat -> (h <= 4)%nat ->
  reads R0 (lk_addr (u_node c s h)) (sread (t_seg 7) 0 64).
Proof.
  intros s h SB H. apply (seg_reads R0 (lk_addr (u_node c s h)) (t_seg 7)); [apply u_segs; auto|cbn; lia|unfold la_end; cbn; lia].
Qed.

(* its paths *)
Lemma u_path : forall p h lk, node_path u_env R0 V p h lk ->
  exists s, (s < 2)%nat /\ (h <= 4)%nat /\ lk = u_node c s h /\ p = repeat 0%nat (4 - h) ++ [s].
Proof.
  intros p h lk N. induction N as [i lk H|p h lk b sl i ch N IH RB SL H].
  - exists i. destruct i as [|[|i]]; cbn in H; [| |destruct i; discriminate]; inversion H; cbn; repeat split; lia.
  - destruct IH as (s & SB & L & -> & ->).
    rewrite (reads_one _ _ _ _ RB (u_node_seg s (S h) SB L)) in SL. cbn [u_env e_node] in SL.
    rewrite u_clone, u_space_of in SL by auto.
    replace (Nat.leb (S h) 4) with true in SL by (symmetry; apply Nat.leb_le; lia).
    change (hd 0 (sread (t_seg 7) 0 64) =? 7) with true in SL. cbn [andb] in SL. inversion SL; subst sl. clear SL.
    destruct i as [|[|i]]; cbn in H; [|discriminate|destruct i; discriminate].
    exists s. split; [auto|split; [lia|]]. split; [inversion H; f_equal; lia|].
    replace (4 - h)%nat with (S (4 - S h)) by lia. reflexivity.
Qed.

Lemma u_path_at : forall s h, (s < 2)%nat -> (h <= 4)%nat ->
  node_path u_env R0 V (repeat 0%nat (4 - h) ++ [s]) h (u_node c s h).
Proof.
  intros s h SB H.
  assert (K : forall k, (k <= 4)%nat -> node_path u_env R0 V (repeat 0%nat k ++ [s]) (4 - k) (u_node c s (4 - k))).
  { induction k as [|k IH]; intros K.
    - apply np_root. destruct s as [|[|s]]; [reflexivity|reflexivity|lia].
    - specialize (IH ltac:(lia)). replace (4 - k)%nat with (S (4 - S k)) in IH by lia.
      eapply np_child; [exact IH|apply u_node_seg; [auto|lia]| |].
      + cbn [u_env e_node]. rewrite u_clone, u_space_of by auto.
        replace (Nat.leb (S (4 - S k)) 4) with true by (symmetry; apply Nat.leb_le; lia).
        change (hd 0 (sread (t_seg 7) 0 64) =? 7) with true. cbn [andb]. reflexivity.
      + cbn [nth_error]. do 3 f_equal. lia. }
  specialize (K (4 - h)%nat ltac:(lia)). replace (4 - (4 - h))%nat with h in K by lia. exact K.
Qed.

Lemma u_at : forall h lk, node_at u_env R0 V h lk -> exists s, (s < 2)%nat /\ (h <= 4)%nat /\ lk = u_node c s h.
Proof.
  intros h lk N. destruct (node_at_np _ _ _ _ _ N) as (p & NP). destruct (u_path _ _ _ NP) as (s & SB & H & L & _). eauto.
Qed.

Lemma u_leaf : forall s b, (s < 2)%nat -> reads R0 (lk_addr (u_node c s 0)) b -> e_leaf u_env (u_node c s 0) b = Some (u_slots c s).
Proof.
  intros s b SB RB. rewrite (reads_one _ _ _ _ RB (u_node_seg s 0 SB ltac:(lia))). cbn [u_env e_leaf].
  rewrite u_clone, u_space_of by auto. reflexivity.
Qed.

Lemma u_block : forall p l, block_seg u_env R0 V p l -> exists s, (s < 2)%nat /\ (l = u_data c s \/ l = u_data false s).
Proof.
  intros p l (lk & b & sl & x & N & RB & SL & IN & ->). destruct (u_path _ _ _ N) as (s & SB & _ & -> & _).
  rewrite (u_leaf s b SB RB) in SL. inversion SL; subst sl. exists s. split; auto.
  destruct IN as [X|[X|[X|[]]]]; subst x; cbn; auto.
Qed.

Lemma u_live : forall a, live u_env R0 V a ->
  a = v_super V \/ exists s, (s < 2)%nat /\
    ((exists h, (h <= 4)%nat /\ a = lk_addr (u_node c s h)) \/ a = u_blk c s 0 100 \/ a = u_blk false s 100 28).
Proof.
  intros a L. destruct L as [|h lk N|lk b sl x N RB SL IN U]; auto; right.
  - destruct (u_at _ _ N) as (s & SB & H & ->). exists s. split; auto. left. eauto.
  - destruct (u_at _ _ N) as (s & SB & H & ->). rewrite (u_leaf s b SB RB) in SL. inversion SL; subst sl.
    exists s. split; auto. destruct IN as [X|[X|[X|[]]]]; subst x; cbn in *; auto.
Qed.

Lemma u_boot_ok : boot_ok u_env R0 (v_boot V) (u_boot c).
Proof.
  split; [destruct c; reflexivity|]. split; [|split; [reflexivity|split; [reflexivity|]]].
  - exists (u_boot c). split; destruct c; reflexivity.
  - exists (u_boot c). split; destruct c; reflexivity.
Qed.

Lemma has_size : forall l ls, u_has l ls = true -> Forall (fun x => ls_lsize x = 65536) ls -> ls_lsize l = 65536.
Proof.
  intros l ls H F. unfold u_has in H. apply existsb_exists in H. destruct H as (x & IN & Q).
  apply lsid_eqb_eq in Q. subst x. rewrite Forall_forall in F. auto.
Qed.

Lemma u_sized : segs_sized R0.
Proof.
  intros l g H. assert (K : ls_lsize l = 65536 /\ sg_size g = 65536).
  { cbn [u_repo r_segs] in H. destruct (u_has l (u_maps false ++ u_maps true)) eqn:X.
    { inversion H. split; [|reflexivity]. eapply has_size; [exact X|]. vm_compute. repeat constructor. }
    destruct (u_has l (u_datas false ++ u_datas true)) eqn:Y.
    { inversion H. split; [|reflexivity]. eapply has_size; [exact Y|]. vm_compute. repeat constructor. }
    destruct (lsid_eqb l (u_spare true)) eqn:Z; [|discriminate]. apply lsid_eqb_eq in Z. subst l. inversion H.
    split; reflexivity. }
  destruct K as (K1 & K2). unfold seg_sized. rewrite K1, K2. unfold LBK_SIZE. split; [reflexivity|lia].
Qed.

Lemma u_lv_len : forall c', length (u_lvid c') = 16%nat.
Proof. intros c'. destruct c'; reflexivity. Qed.

Ltac prop := unfold proper; cbn [u_node u_blk u_vol v_super lk_addr la_lsid la_pos la_len u_seg u_data u_top ls_lvid ls_lsize ls_vindex ls_vspace ls_height ls_ltype];
  rewrite u_lv_len; unfold LT_BOOTREC; repeat split; lia.

Lemma u_sound : sound u_env R0 V.
Proof.
  constructor.
  - exact u_sized.
  - intros a L. apply u_live in L. destruct L as [->|(s & SB & [(h & H & ->)|[->| ->]])].
    + split; [prop|]. eexists. apply seg_reads with (g := t_seg 7); [destruct c; vm_compute; reflexivity|cbn; lia|unfold la_end; cbn; lia].
    + split; [prop|]. eexists. apply u_node_seg; auto.
    + split; [prop|]. eexists. apply seg_reads with (g := t_seg 8); [apply u_dats; auto|cbn; lia|unfold la_end; cbn; lia].
    + split; [prop|]. eexists. apply seg_reads with (g := t_seg 8); [apply u_dats; auto|cbn; lia|unfold la_end; cbn; lia].
  - intros h lk b N RB. destruct (u_at _ _ N) as (s & SB & H & ->).
    rewrite (reads_one _ _ _ _ RB (u_node_seg s (S h) SB H)). eexists. split.
    { cbn [u_env e_node]. replace (Nat.leb (S h) 4) with true by (symmetry; apply Nat.leb_le; lia).
      change (hd 0 (sread (t_seg 7) 0 64) =? 7) with true. cbn [andb]. reflexivity. }
    intros i j x L HJ. destruct i as [|i]; [eexists; reflexivity|].
    destruct j as [|[|j]]; [lia|lia|]. cbn in HJ. destruct j; discriminate.
  - intros lk b N RB. destruct (u_at _ _ N) as (s & SB & H & ->). eexists. apply u_leaf; auto.
  - exists (u_boot c). apply u_boot_ok.
Qed.

Lemma u_seg_inj : forall s h s' h', u_seg c s h = u_seg c s' h' -> s = s' /\ h = h'.
Proof. intros s h s' h' Q. unfold u_seg in Q. inversion Q. lia. Qed.

Lemma u_parted : parted u_env R0 V.
Proof.
  constructor.
  - intros i p h lk j q k lk' N1 N2 _ Q.
    destruct (u_path _ _ _ N1) as (s & SB & H & -> & P1). destruct (u_path _ _ _ N2) as (s' & S' & H' & -> & P2).
    cbn in Q. apply u_seg_inj in Q. destruct Q as (-> & ->). rewrite <- P2 in P1. inversion P1. auto.
  - intros p l q h lk B _ N Q. destruct (u_block _ _ B) as (s & SB & [->| ->]);
      destruct (u_path _ _ _ N) as (s' & S' & H & -> & _); cbn in Q; inversion Q.
  - intros p h lk N Q. destruct (u_path _ _ _ N) as (s' & S' & H & -> & _). cbn in Q. inversion Q.
  - intros p l B Q. destruct (u_block _ _ B) as (s & SB & [->| ->]); inversion Q.
  - intros i Q. destruct i as [|[|i]]; cbn in Q; [discriminate|discriminate|destruct i; discriminate].
  - intros p lk b sl x N RB SL IN. destruct (u_path _ _ _ N) as (s & SB & H & -> & _).
    rewrite (u_leaf s b SB RB) in SL. inversion SL; subst sl.
    assert (s = 0 \/ s = 1)%nat as [-> | ->] by lia; destruct IN as [X|[X|[X|[]]]]; subst x; destruct c; vm_compute; reflexivity.
  - intros e H. assert (e = u_boot c) as -> by (destruct c; cbn in H; congruence). reflexivity.
Qed.

Lemma u_typed : typed u_env V.
Proof.
  constructor.
  - prop.
  - intros lk [X|[X|[]]]; inversion X; prop.
  - intros h lk b sl x H IN. cbn [u_env e_node] in H. destruct ((hd 0 b =? 7) && Nat.leb h 4) eqn:L; [|discriminate].
    apply andb_true_iff in L. destruct L as (_ & L). apply Nat.leb_le in L.
    assert (US : (u_space lk < 2)%nat) by (unfold u_space; destruct (_ =? 1); lia).
    inversion H; subst sl. destruct IN as [X|[X|[]]]; [|discriminate]. inversion X. prop.
  - intros lk b sl x H IN U. cbn [u_env e_leaf] in H. destruct (hd 0 b =? 7) eqn:L; [|discriminate].
    assert (US : (u_space lk < 2)%nat) by (unfold u_space; destruct (_ =? 1); lia).
    inversion H; subst sl. destruct IN as [X|[X|[X|[]]]]; subst x; cbn in U; [|lia|]; cbn [sl_addr]; prop.
Qed.
End Toy.
