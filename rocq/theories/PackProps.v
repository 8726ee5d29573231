(* Archive and restore (C49-C51). *)
From Verif Require Import Base AddrModel AddrProofs WalkModel PackModel PackSpec PackProofs PackSafe PackToy.
From Coq Require Import ZifyBool.

(* ---- C49: an archive restored is the file-system archived ---- *)
(* R' holds the same file-system: every byte of every live address, the boot record,
   and with them the same set of addresses, none missing *)
Definition same_fs (E : env) (v : vol) (R R' : repo) : Prop :=
  (forall a l p, live E R v a -> inside a l p -> seg_byte R' l p = seg_byte R l p) /\
  (exists b, boot_ok E R (v_boot v) b /\ boot_ok E R' (v_boot v) b) /\
  sound E R' v /\ (forall a, live E R' v a <-> live E R v a).

Definition only_packs (R r : repo) : Prop :=
  r_segs r = r_segs R /\ r_blobs r = r_blobs R /\ r_refs r = r_refs R.

(* Whatever fails (f and f2 say which steps do): an archive run of a sound file-system
   that reports success leaves objects from which a restore, into any repository that
   was given them, either reports a failure some step caused, or succeeds with the same
   file-system.  Without failing steps both succeed; the one limit is the number of
   addresses an index may hold. *)
Theorem archive_restore_exact : forall E R v f d,
  sound E R v -> packs_ok E R -> clash_free E R v -> digests E ->
  match fs_pack E v (mkSt R f d) with
  | (Ok c, s1) =>
      only_packs R (s_repo s1) /\
      forall R2 f2 d2, segs_sized R2 ->
        (forall c e, r_packs (s_repo s1) c = Some e -> r_packs R2 c = Some e) ->
        match fs_unpack E c (mkSt R2 f2 d2) with
        | (Ok c', s2) => c' = v_boot v /\ same_fs E v R (s_repo s2)
        | (Err _, _) => faulty f2
        | (Abort, _) => False
        end
  | (Err e, s1) => faulty f \/ (e = EInval /\ 1048572 < Z.of_nat (length (s_descs s1)))
  | (Abort, _) => False
  end.
Proof.
  intros E R v f d SO PO CF DG. pose proof (fs_pack_spec E R v f d SO PO CF DG) as H.
  destruct (fs_pack E v (mkSt R f d)) as [[c|e|] s1]; auto.
  - destruct H as ((ds & AR) & H1 & H2 & H3). split; [split; auto|]. intros R2 f2 d2 SZ SUP.
    assert (A2 : archived E R v R2 c).
    { exists ds. cbv zeta in *. destruct AR as (AC & AOK & APK & AWF & ADI & ACV & AB).
      split; auto. split; auto. split; [auto|]. split; [auto|]. split; [|split; auto].
      eapply Forall_impl; [|exact ADI]. intros x Hx. eapply dinv_packs; [exact Hx|]. intros; auto. }
    pose proof (fs_unpack_spec E R v R2 c f2 d2 SO DG SZ A2) as U.
    destruct (fs_unpack E c (mkSt R2 f2 d2)) as [[c'|e|] s2]; auto.
    destruct U as (U1 & U2 & U3 & U4 & U5). split; auto.
    assert (U6 : exists b, boot_ok E (s_repo s2) (v_boot v) b) by (destruct U5 as (b & _ & X); eauto).
    destruct (sound_agree E R (s_repo s2) v SO U4 U2 U6) as (V1 & V2).
    split; [auto|split; [auto|split; auto]].
  - destruct H as [H|(HE & H)]; [left; auto|right; split; auto].
    revert H. unfold index_size_ok, index_size, PAR_INDEX_MIN, PAR_INDEX_MAX, HDR_SIZE, DSC_SIZE, LBK_SIZE.
    set (n := Z.of_nat (length (s_descs s1))). intros H.
    pose proof (Z.div_mod (1024 + n * 256 + 65536 - 1) 65536 ltac:(lia)).
    pose proof (Z.mod_pos_bound (1024 + n * 256 + 65536 - 1) 65536 ltac:(lia)).
    assert (0 <= n) by (unfold n; lia). lia.
Qed.
Print Assumptions archive_restore_exact.

(* the toy file-system meets the hypotheses *)
Example archive_restore_hyps :
  sound t_env t_repo t_vol /\ packs_ok t_env t_repo /\ clash_free t_env t_repo t_vol /\ digests t_env.
Proof.
  split; [apply t_sound|]. split; [apply t_packs_ok|]. split; [|apply t_digests].
  apply t_clash_free. discriminate.
Qed.
(* archived, then restored into an empty repository: the bytes 8,0 of the first block
   and of the super-block are there, what lies outside of them reads as zero *)
Example archive_restore_run :
  match fs_pack t_env t_vol (mkSt t_repo [] []) with
  | (Ok c, s1) =>
      match fs_unpack t_env c (mkSt (packs_only (s_repo s1)) [] []) with
      | (Ok c', s2) => Some (length (s_descs s1), caddr_eqb c' (v_boot t_vol),
          map (seg_byte (s_repo s2) t_data) [0; 1; 127; 65535; 65536],
          seg_byte (s_repo s2) t_maps 0, r_refs (s_repo s2) c')
      | _ => None end
  | _ => None
  end = Some (8%nat, true, [Some 8; Some 0; Some 0; Some 0; None], Some 7, true).
Proof. vm_compute. reflexivity. Qed.

(* an archive run, failed or not and whatever it meets, leaves an intact store intact
   (so that packs_ok above holds again for the next run) *)
Theorem archive_keeps_store : forall E R v f d,
  digests E -> typed E v -> boot_stable E R v -> packs_ok E R ->
  let s := snd (fs_pack E v (mkSt R f d)) in
  packs_ok E (s_repo s) \/
  (let y := index_bytes E (s_descs s) (index_size (Z.of_nat (length (s_descs s)))) in
   exists x, r_packs R (caddr_of E y CT_PACKIDX) = Some x /\ x <> y /\
             length x = length y /\ e_hash E x = e_hash E y).
Proof. intros E R v f d DG TY BS PO. apply fs_pack_store; auto. Qed.
Print Assumptions archive_keeps_store.

Example archive_keeps_store_hyps :
  digests t_env /\ typed t_env t_vol /\ boot_stable t_env t_repo t_vol /\ packs_ok t_env t_repo.
Proof. split; [apply t_digests|split; [apply t_typed|split; [apply t_boot_stable|apply t_packs_ok]]]. Qed.
(* a run whose first object was cut short after 3 bytes; a second run completes it *)
Example archive_cut_short :
  let c := caddr_of t_env (8 :: repeat 0 127) CT_ENCSEG in
  let run f := fs_pack t_env t_vol (mkSt t_repo f []) in
  let s1 := snd (run (repeat FGood 31 ++ [FBad 3])) in
  match fs_pack t_env t_vol (mkSt (s_repo s1) [] []) with
  | (r, s2) => (fst (run (repeat FGood 31 ++ [FBad 3])), r_packs (s_repo s1) c,
                match r with Ok _ => true | _ => false end,
                option_map (fun e => length e) (r_packs (s_repo s2) c))
  end = (Err EIo, Some [8; 0; 0], true, Some 128%nat).
Proof. vm_compute. reflexivity. Qed.

(* ---- where it does not hold ---- *)
(* with the segment of one block missing, the run succeeds and leaves out every block
   of the leaf, the intact ones too *)
Definition t_lost : lsid := mkLsid t_lvid 65536 2 2 0 9.
Definition t_env_lost : env := mkEnv t_hash (fun _ => 1)
  (fun h _ _ => if Nat.leb h 4 then Some [Some (t_node (h - 1)); None] else None)
  (fun _ _ => Some [mkSlot 100 (mkLaddr t_lost 0 100); mkSlot 28 t_blk2])
  (fun b => if hd 0 b =? 9 then Some b else None) (fun b => b).

Theorem archive_drops_intact_blocks_refuted :
  exists E R v c s1 c' s2 a b,
    packs_ok E R /\ digests E /\
    live E R v a /\ proper a /\ reads R a b /\
    fs_pack E v (mkSt R [] []) = (Ok c, s1) /\
    fs_unpack E c (mkSt (packs_only (s_repo s1)) [] []) = (Ok c', s2) /\
    r_segs (s_repo s2) (la_lsid a) = None.
Proof.
  exists t_env_lost, t_repo, t_vol.
  destruct (fs_pack t_env_lost t_vol (mkSt t_repo [] [])) as [r1 s1] eqn:P1.
  assert (X1 : match r1 with Ok c =>
     match fs_unpack t_env_lost c (mkSt (packs_only (s_repo s1)) [] []) with
     | (Ok _, s2) => match r_segs (s_repo s2) t_data with None => true | Some _ => false end
     | _ => false end | _ => false end = true).
  { pose proof (f_equal fst P1) as Q1. pose proof (f_equal snd P1) as Q2. cbn [fst snd] in Q1, Q2. subst r1 s1.
    vm_compute. reflexivity. }
  destruct r1 as [c|e|]; [|discriminate|discriminate].
  destruct (fs_unpack t_env_lost c (mkSt (packs_only (s_repo s1)) [] [])) as [[c'|e|] s2] eqn:P2; [|discriminate|discriminate].
  exists c, s1, c', s2, t_blk2, (sread (t_seg 8) 100 28).
  split; [intros ? ? H; discriminate|]. split; [split; intros; cbn; [reflexivity|lia]|].
  split.
  { assert (N : forall k, (k <= 4)%nat -> node_at t_env_lost t_repo t_vol (4 - k) (t_node (4 - k))).
    { induction k as [|k IH]; intros K; [apply na_root; right; left; reflexivity|].
      specialize (IH ltac:(lia)). replace (4 - k)%nat with (S (4 - S k)) in IH by lia.
      eapply na_child; [exact IH|apply (seg_reads t_repo (lk_addr (t_node (S (4 - S k)))) (t_seg 7)); [reflexivity|cbn [t_node lk_addr la_pos]; lia|unfold la_end; cbn [t_node lk_addr la_pos la_len t_seg sg_size]; lia]| |].
      - cbn [t_env_lost e_node]. replace (Nat.leb (S (4 - S k)) 4) with true by (symmetry; apply Nat.leb_le; lia). reflexivity.
      - left. f_equal. f_equal. lia. }
    change t_blk2 with (sl_addr (mkSlot 28 t_blk2)).
    eapply lv_block; [apply (N 4%nat); lia|apply (seg_reads t_repo (lk_addr (t_node 0)) (t_seg 7)); [reflexivity|cbn; lia|cbn; unfold la_end; cbn; lia]|reflexivity|right; left; reflexivity|cbn; lia]. }
  split; [unfold proper; cbn; repeat split; lia|].
  split; [apply (seg_reads t_repo t_blk2 (t_seg 8)); [reflexivity|cbn; lia|unfold la_end; cbn; lia]|].
  split; [reflexivity|]. split; [exact P2|].
  destruct (r_segs (s_repo s2) t_data) eqn:Q; [discriminate|]. exact Q.
Qed.
Print Assumptions archive_drops_intact_blocks_refuted.

(* an object of the right size and wrong contents is taken for the one to be written:
   archive and restore both succeed, with other bytes *)
Definition t_bad : repo := t_rep 8
  (fun c => if caddr_eqb c (caddr_of t_env (8 :: repeat 0 127) CT_ENCSEG) then Some (4 :: repeat 0 127) else None).
Theorem archive_keeps_damaged_object_refuted :
  exists E R v c s1 c' s2,
    segs_sized R /\ clash_free E R v /\ digests E /\ live E R v t_blk1 /\
    fs_pack E v (mkSt R [] []) = (Ok c, s1) /\
    fs_unpack E c (mkSt (packs_only (s_repo s1)) [] []) = (Ok c', s2) /\
    seg_byte R t_data 0 = Some 8 /\ seg_byte (s_repo s2) t_data 0 = Some 4.
Proof.
  exists t_env, t_bad, t_vol.
  destruct (fs_pack t_env t_vol (mkSt t_bad [] [])) as [r1 s1] eqn:P1.
  assert (X1 : match r1 with Ok c =>
     match fs_unpack t_env c (mkSt (packs_only (s_repo s1)) [] []) with
     | (Ok _, s2) => seg_byte (s_repo s2) t_data 0
     | _ => None end | _ => None end = Some 4).
  { pose proof (f_equal fst P1) as Q1. pose proof (f_equal snd P1) as Q2. cbn [fst snd] in Q1, Q2. subst r1 s1.
    vm_compute. reflexivity. }
  destruct r1 as [c|e|]; [|discriminate|discriminate].
  destruct (fs_unpack t_env c (mkSt (packs_only (s_repo s1)) [] [])) as [[c'|e|] s2] eqn:P2; [|discriminate|discriminate].
  exists c, s1, c', s2.
  split; [exact (so_sized _ _ _ (t_sound 8 _))|].
  split.
  { apply t_clash_free. intros c0 e H. destruct (caddr_eqb c0 _) in H; [|discriminate].
    assert (He : e = 4 :: repeat 0 127) by congruence. rewrite He.
    intros i Hi. destruct i as [|i]; [lia|]. change (nth i (repeat 0 127) 0 = 0). apply nth_repeat. }
  split; [apply t_digests|]. split; [apply t_live_blk1|].
  split; [reflexivity|]. split; [exact P2|]. split; [reflexivity|exact X1].
Qed.
Print Assumptions archive_keeps_damaged_object_refuted.

(* ---- C50: a damaged archive is found out ---- *)
(* nothing is written, nothing is read out of bounds and the restore fails unless the
   stored index (but for its last, incomplete descriptor if it has one) has the digest
   and size its name says *)
Theorem restore_checks_index : forall E c R f d,
  ca_type c = CT_PACKIDX ->
  (forall e k, r_packs R c = Some e -> (k < 256)%nat -> (k <= length e)%nat ->
     c <> caddr_of E (firstn (length e - k) e) CT_PACKIDX) ->
  exists x s, fs_unpack E c (mkSt R f d) = (Err x, s) /\ s_repo s = R.
Proof.
  intros E c R f d T H. unfold fs_unpack, bind.
  destruct (import_index_spec E c (mkSt R f d)) as (H1 & H2).
  destruct (import_index E c (mkSt R f d)) as [[ds|x|] s]; cbn [fst snd] in *.
  - destruct H2 as (_ & e & PK & D).
    destruct (index_decode_digest E c e ds (or_introl D)) as (k & K1 & K2 & K3).
    exfalso. eapply H; eauto.
  - exists x, s. auto.
  - destruct H2 as [H2|(e & PK & D)]; [contradiction|].
    destruct (index_decode_digest E c e [] (or_intror D)) as (k & K1 & K2 & K3).
    exfalso. eapply H; eauto.
Qed.
Print Assumptions restore_checks_index.

(* a byte of the index flipped (here its first one, which the toy digest sees) *)
Example restore_checks_index_hyps :
  let s1 := snd (fs_pack t_env t_vol (mkSt t_repo [] [])) in
  match fst (fs_pack t_env t_vol (mkSt t_repo [] [])) with
  | Ok c =>
      match r_packs (s_repo s1) c with
      | Some e =>
          let R := mkRepo (fun _ => None) (fun x => if caddr_eqb x c then Some (0 :: tl e) else None) (fun _ => None) (fun _ => false) in
          (forallb (fun k => negb (caddr_eqb c (caddr_of t_env (firstn (length e - k) (0 :: tl e)) CT_PACKIDX))) (seq 0 256),
           fst (fs_unpack t_env c (mkSt R [] [])))
      | None => (false, Abort)
      end
  | _ => (false, Abort)
  end = (true, Err ECsum).
Proof. vm_compute. reflexivity. Qed.

(* the blocks are not compared with their digests *)
Theorem restore_checks_blocks_refuted :
  exists E c R c' s, digests E /\
    fs_unpack E c (mkSt R [] []) = (Ok c', s) /\
    exists e ds x b, r_packs R c = Some e /\ index_decode E c e = Ok ds /\ In x ds /\
      is_bootrec (d_laddr x) = false /\
      reads (s_repo s) (d_laddr x) b /\ e_hash E b <> ca_hash (d_caddr x).
Proof.
  set (c := match fst (fs_pack t_env t_vol (mkSt t_repo [] [])) with Ok c => c | _ => v_boot t_vol end).
  set (s1 := snd (fs_pack t_env t_vol (mkSt t_repo [] []))).
  set (R := mkRepo (fun _ => None)
     (fun x => if caddr_eqb x (caddr_of t_env (8 :: repeat 0 127) CT_ENCSEG) then Some (4 :: repeat 0 127) else r_packs (s_repo s1) x)
     (fun _ => None) (fun _ => false)).
  set (a := mkLaddr t_data 0 128).
  assert (X1 : match fs_unpack t_env c (mkSt R [] []) with
     | (Ok _, s2) =>
        match r_packs R c with
        | Some e => match index_decode t_env c e, r_segs (s_repo s2) t_data with
                    | Ok ds, Some g => nth_error ds 7 = Some (mkDesc (caddr_of t_env (8 :: repeat 0 127) CT_ENCSEG) a)
                                 /\ sread g 0 1 = [4] /\ sg_size g = 65536
                    | _, _ => False end
        | None => False end
     | _ => False end) by (vm_compute; auto).
  clearbody c s1.
  destruct (fs_unpack t_env c (mkSt R [] [])) as [[c'|e|] s2] eqn:P2; [|contradiction|contradiction].
  destruct (r_packs R c) as [e|] eqn:PK; [|contradiction].
  destruct (index_decode t_env c e) as [ds| |] eqn:D; [|contradiction|contradiction].
  destruct (r_segs (s_repo s2) t_data) as [g|] eqn:G; [|contradiction].
  destruct X1 as (N & SR & SZ).
  exists t_env, c, R, c', s2. split; [apply t_digests|]. split; [exact P2|].
  exists e, ds, (mkDesc (caddr_of t_env (8 :: repeat 0 127) CT_ENCSEG) a), (sread g 0 128).
  split; [exact PK|]. split; [exact D|]. split; [eapply nth_error_In; exact N|]. split; [reflexivity|].
  split.
  - apply (seg_reads (s_repo s2) a g); [exact G|cbn; lia|unfold la_end; cbn; lia].
  - cbn [t_env e_hash]. unfold t_hash. cbn [d_caddr ca_hash caddr_of t_env e_hash t_hash hd].
    unfold sread in *. change (Z.to_nat 128) with (1 + 127)%nat. rewrite seq_app, map_app.
    change (Z.to_nat 1) with 1%nat in SR. cbn [Nat.add] in *. rewrite SR. cbn [app hd]. discriminate.
Qed.
Print Assumptions restore_checks_blocks_refuted.

(* nor is the number of descriptors in the header compared with the size of the
   object: a crafted index whose digests are right makes the restore read past it *)
Definition t_evil : bytes :=
  let area := repeat 0 64512 in
  let h := hdr_head 1000000 (e_xxh t_env area) in
  h ++ le_enc 8 (e_xxh t_env h) ++ area.
Theorem restore_index_overread_refuted :
  exists E c R, digests E /\ ca_type c = CT_PACKIDX /\
    (exists e, r_packs R c = Some e /\ c = caddr_of E e CT_PACKIDX /\ Z.of_nat (length e) = 65536) /\
    fst (fs_unpack E c (mkSt R [] [])) = Abort.
Proof.
  exists t_env, (caddr_of t_env t_evil CT_PACKIDX),
    (mkRepo (fun _ => None) (fun _ => Some t_evil) (fun _ => None) (fun _ => false)).
  split; [apply t_digests|]. split; [reflexivity|]. split.
  - exists t_evil. split; [reflexivity|]. split; [reflexivity|]. vm_compute. reflexivity.
  - vm_compute. reflexivity.
Qed.
Print Assumptions restore_index_overread_refuted.

(* ---- C51: a restore leaves the rest of the repository alone ---- *)
(* whatever the index says and whatever fails: archive objects, boot records other than
   ones stored under their own digest, and all segment bytes the index does not cover
   are as before; new parts of segments the index names read as zeros *)
Theorem restore_frame : forall E c s, let s' := snd (fs_unpack E c s) in
  s_repo s' = s_repo s \/
  exists e ds, r_packs (s_repo s) c = Some e /\ index_decode E c e = Ok ds /\
               frame E ds (s_repo s) (s_repo s').
Proof. exact fs_unpack_frame. Qed.
Print Assumptions restore_frame.

(* in particular a segment the index does not name keeps every byte *)
Theorem restore_others_untouched : forall E c s l,
  (forall e ds, r_packs (s_repo s) c = Some e -> index_decode E c e = Ok ds -> ~ names ds l) ->
  forall p, seg_byte (s_repo (snd (fs_unpack E c s))) l p = seg_byte (s_repo s) l p.
Proof.
  intros E c s l H p. destruct (fs_unpack_frame E c s) as [->|(e & ds & PK & D & _ & F & _)]; auto.
  assert (NM := H e ds PK D). destruct (F l p) as [X|(X & _)]; auto; [|contradiction].
  intros d IN NB (L & _). apply NM. exists d. auto.
Qed.
Print Assumptions restore_others_untouched.

Example restore_others_run :
  let other := mkLsid (repeat 6 16) 65536 0 2 4 9 in
  match fs_pack t_env t_vol (mkSt t_repo [] []) with
  | (Ok c, s1) =>
      let R2 := upd_seg (packs_only (s_repo s1)) other (Some (t_seg 3)) in
      let s2 := snd (fs_unpack t_env c (mkSt R2 [FGood; FGood; FGood; FGood; FGood; FBad 0] [])) in
      let s3 := snd (fs_unpack t_env c (mkSt R2 [] [])) in
      Some (seg_byte (s_repo s2) other 0, seg_byte (s_repo s3) other 0, seg_byte (s_repo s3) t_maps 0)
  | _ => None
  end = Some (Some 3, Some 3, Some 7).
Proof. vm_compute. reflexivity. Qed.

(* where the file-system is still there and has changed since, its newer bytes are lost *)
Theorem restore_spares_live_fs_refuted :
  exists E R v c s1 R2 s2 c', sound E R2 v /\
    fs_pack E v (mkSt R [] []) = (Ok c, s1) /\
    r_packs R2 = r_packs (s_repo s1) /\
    fs_unpack E c (mkSt R2 [] []) = (Ok c', s2) /\
    exists a l p, live E R2 v a /\ inside a l p /\ seg_byte (s_repo s2) l p <> seg_byte R2 l p.
Proof.
  exists t_env, t_repo, t_vol.
  destruct (fs_pack t_env t_vol (mkSt t_repo [] [])) as [r1 s1] eqn:P1.
  set (R2 := t_rep 2 (r_packs (s_repo s1))).
  assert (X1 : match r1 with Ok c =>
     match fs_unpack t_env c (mkSt R2 [] []) with
     | (Ok _, s2) => seg_byte (s_repo s2) t_data 0
     | _ => None end | _ => None end = Some 8).
  { unfold R2. pose proof (f_equal fst P1) as Q1. pose proof (f_equal snd P1) as Q2. cbn [fst snd] in Q1, Q2. subst r1 s1.
    vm_compute. reflexivity. }
  destruct r1 as [c|e|]; [|discriminate|discriminate].
  destruct (fs_unpack t_env c (mkSt R2 [] [])) as [[c'|e|] s2] eqn:P2; [|discriminate|discriminate].
  exists c, s1, R2, s2, c'.
  split; [apply t_sound|]. split; [reflexivity|]. split; [reflexivity|]. split; [exact P2|].
  exists t_blk1, t_data, 0. split; [apply t_live_blk1|]. split; [split; [reflexivity|cbn; lia]|].
  rewrite X1. vm_compute. discriminate.
Qed.
Print Assumptions restore_spares_live_fs_refuted.
