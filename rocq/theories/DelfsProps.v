(* Removal of a file-system: theorems.  Models: DelfsModel, WalkModel.  Spec: DelfsSpec,
   PackSpec. *)
From Verif Require Import Base AddrModel WalkModel PackModel PackSpec PackProofs PackSafe PackToy PackProps
  DelfsModel DelfsSpec DelfsProofs DelfsToy.

(* ---- C52: removal takes all of one file-system and nothing of another ---- *)
(* Whatever the state and whatever fails: only segments of the volume of v go, only its
   boot record is unlinked; no other byte changes (a segment that a map node names but
   that is missing may appear, all zeros). *)
Theorem remove_only_own : forall E v fossil s,
  rm_frame v (s_repo s) (s_repo (snd (fs_remove E v fossil s))).
Proof. exact fs_remove_frame. Qed.
Print Assumptions remove_only_own.

(* a run that fails at its 40th step *)
Definition u_bad (n : nat) : list fate := repeat FGood n ++ [FBad 0].
Example remove_only_own_ex :
  match fs_remove u_env (u_vol true) false (mkSt u_repo (u_bad 40) []) with
  | (Err EIo, s) =>
      (match r_segs (s_repo s) (u_data true 0), r_segs (s_repo s) (u_data true 1) with None, Some g => sg_at g 0 | _, _ => 0 end,
       match r_segs (s_repo s) (u_data false 0) with Some g => sg_at g 0 | None => 0 end, r_refs (s_repo s) (v_boot (u_vol true)))
  | _ => (0, 0, false)
  end = (8, 8, true).
Proof. vm_compute. reflexivity. Qed.

(* Another file-system w, none of whose addresses lies in the volume of v (w may be the
   base of v, or another clone of the same base), is byte for byte what it was, whatever
   fails. *)
Theorem remove_spares_others : forall E R v w fossil f d,
  sound E R w -> typed E v ->
  (forall a, live E R w a -> ~ own v (la_lsid a)) ->
  ca_hash (v_boot w) <> ca_hash (v_boot v) ->
  same_fs E w R (s_repo (snd (fs_remove E v fossil (mkSt R f d)))).
Proof.
  intros E R v w fossil f d SO TY AP HB.
  pose proof (fs_remove_frame E v fossil (mkSt R f d)) as FR.
  pose proof (fs_remove_sized E v fossil (mkSt R f d) TY (so_sized _ _ _ SO)) as SZ.
  cbn [s_repo] in FR. set (r := s_repo (snd (fs_remove E v fossil (mkSt R f d)))) in *. clearbody r.
  destruct FR as (_ & FS & FB & FC).
  assert (SB : forall a l p, live E R w a -> inside a l p -> seg_byte r l p = seg_byte R l p).
  { intros a l p LV (-> & IN). destruct (so_live _ _ _ SO _ LV) as (PR & b & RB).
    destruct (reads_seg _ _ _ PR RB) as (g & G & _).
    assert (Q : r_segs r (la_lsid a) = r_segs R (la_lsid a)).
    { destruct (FS (la_lsid a)) as [H|[(O & _)|([O|N] & _)]]; auto; [exfalso; eapply AP; eauto|exfalso; eapply AP; eauto|congruence]. }
    unfold seg_byte. rewrite Q. auto. }
  destruct (so_boot _ _ _ SO) as (b & BO).
  assert (B' : boot_ok E r (v_boot w) b).
  { destruct BO as (BR & (e & BE & BF) & BT). split; [|split; [|exact BT]].
    - rewrite FC; auto. congruence.
    - exists e. rewrite FB by auto. auto. }
  destruct (sound_agree E R r w SO SB SZ (ex_intro _ b B')) as (S1 & S2).
  split; [exact SB|]. split; [exists b; auto|]. split; auto.
Qed.
Print Assumptions remove_spares_others.

(* the base, when its clone is removed *)
Example remove_spares_others_ex :
  sound u_env u_repo (u_vol false) /\ typed u_env (u_vol true) /\
  (forall a, live u_env u_repo (u_vol false) a -> ~ own (u_vol true) (la_lsid a)) /\
  ca_hash (v_boot (u_vol false)) <> ca_hash (v_boot (u_vol true)) /\
  (exists a, live u_env u_repo (u_vol false) a /\ live u_env u_repo (u_vol true) a).
Proof.
  split; [apply u_sound|]. split; [apply u_typed|]. split; [|split].
  - intros a L O. apply u_live in L. destruct L as [->|(s & S & [(h & H & ->)|[->| ->]])]; vm_compute in O; discriminate.
  - vm_compute. discriminate.
  - exists (u_blk false 0 100 28).
    assert (K : forall c, live u_env u_repo (u_vol c) (u_blk false 0 100 28)).
    { intros c. change (u_blk false 0 100 28) with (sl_addr (mkSlot 28 (u_blk false 0 100 28))).
      eapply lv_block with (sl := u_slots c 0); [|apply (u_node_seg c 0 0); lia| |right; right; left; reflexivity|cbn; lia].
      - eapply np_node_at. apply (u_path_at c 0 0); lia.
      - apply u_leaf; [lia|]. apply u_node_seg; lia. }
    split; apply K.
Qed.

(* A removal that reports success has removed every segment of the volume that the
   file-system names (super-block, map nodes of all heights, blocks), and the boot
   record, and nothing else.  It fails only if some step does. *)
Theorem remove_complete : forall E R v f d, sound E R v -> parted E R v ->
  match fs_remove E v false (mkSt R f d) with
  | (Ok _, s) => removed E v R (s_repo s)
  | (Err _, _) => faulty f
  | (Abort, _) => False
  end.
Proof. intros E R v f d SO PT. apply fs_remove_spec; auto. apply (pt_boot _ _ _ PT). Qed.
Print Assumptions remove_complete.

Example remove_complete_ex :
  sound u_env u_repo (u_vol true) /\ parted u_env u_repo (u_vol true) /\
  match fs_remove u_env (u_vol true) false (mkSt u_repo [] []) with
  | (Ok _, s) =>
      (forallb (fun l => match r_segs (s_repo s) l with None => true | Some _ => false end) (u_maps true ++ u_datas true),
       forallb (fun l => match r_segs (s_repo s) l with None => false | Some _ => true end) (u_maps false ++ u_datas false),
       r_refs (s_repo s) (v_boot (u_vol true)), r_refs (s_repo s) (v_boot (u_vol false)))
  | _ => (false, false, true, false)
  end = (true, true, false, true).
Proof. split; [apply u_sound|]. split; [apply u_parted|]. vm_compute. reflexivity. Qed.

(* The base of a snapshot is refused, and nothing is written. *)
Theorem remove_refuses_base : forall E R v f d, sound E R v ->
  (forall e, r_blobs R (ca_hash (v_boot v)) = Some e -> length e = 1024%nat) ->
  match fs_remove E v true (mkSt R f d) with
  | (Err e, s) => (e = ERofs \/ faulty f) /\ s_repo s = R
  | _ => False
  end.
Proof. exact fs_remove_base. Qed.
Print Assumptions remove_refuses_base.

Example remove_refuses_base_ex :
  match fs_remove u_env (u_vol false) true (mkSt u_repo [] []) with
  | (Err ERofs, s) => match r_segs (s_repo s) (u_data false 1) with Some g => sg_at g 0 | None => 0 end
  | _ => 0
  end = 8.
Proof. vm_compute. reflexivity. Qed.

(* The refusal is needed: were the base not marked, its removal would succeed and take
   data of the clone with it. *)
Theorem unmarked_base_refuted : exists E R v w,
  sound E R v /\ parted E R v /\ sound E R w /\ v_boot w <> v_boot v /\ ls_lvid (la_lsid (v_super w)) <> ls_lvid (la_lsid (v_super v)) /\
  match fs_remove E v false (mkSt R [] []) with
  | (Ok _, s) => exists a, live E R w a /\ (exists b, reads R a b) /\ r_segs (s_repo s) (la_lsid a) = None
  | _ => False
  end.
Proof.
  exists u_env, u_repo, (u_vol false), (u_vol true).
  split; [apply u_sound|]. split; [apply u_parted|]. split; [apply u_sound|].
  split; [vm_compute; discriminate|]. split; [vm_compute; discriminate|].
  assert (LV : live u_env u_repo (u_vol true) (u_blk false 0 100 28)).
  { change (u_blk false 0 100 28) with (sl_addr (mkSlot 28 (u_blk false 0 100 28))).
    eapply lv_block with (sl := u_slots true 0); [|apply (u_node_seg true 0 0); lia| |right; right; left; reflexivity|cbn; lia].
    - eapply np_node_at. apply (u_path_at true 0 0); lia.
    - apply (u_leaf true); [lia|]. apply u_node_seg; lia. }
  assert (RD : exists b, reads u_repo (u_blk false 0 100 28) b) by (apply (so_live _ _ _ (u_sound true) _ LV)).
  set (x := fs_remove u_env (u_vol false) false (mkSt u_repo [] [])) in *.
  assert (K : match x with (Ok _, s) => r_segs (s_repo s) (u_data false 0) = None | _ => False end)
    by (vm_compute; reflexivity).
  clearbody x. destruct x as [[u0|e|] s]; try contradiction.
  exists (u_blk false 0 100 28). split; auto.
Qed.
Print Assumptions unmarked_base_refuted.

(* Not everything of the volume goes.  A leaf copied on write makes a segment for its own
   blocks and then takes over the slots of the leaf it copies (lib/vstage.c:1631-1644), so
   that segment may be named by no slot; a removal that reports success leaves it, and with
   the boot record gone nothing names it any more. *)
Theorem remove_all_own_refuted : exists E R v l,
  sound E R v /\ parted E R v /\ own v l /\ r_segs R l <> None /\
  match fs_remove E v false (mkSt R [] []) with
  | (Ok _, s) => r_segs (s_repo s) l = r_segs R l
  | _ => False
  end.
Proof.
  exists u_env, u_repo, (u_vol true), (u_spare true).
  split; [apply u_sound|]. split; [apply u_parted|]. split; [reflexivity|]. split; [vm_compute; discriminate|].
  set (x := fs_remove u_env (u_vol true) false (mkSt u_repo [] [])).
  set (g := r_segs u_repo (u_spare true)).
  assert (K : match x with (Ok _, s) => r_segs (s_repo s) (u_spare true) = Some (t_seg 3) | _ => False end)
    by (vm_compute; reflexivity).
  assert (G : g = Some (t_seg 3)) by (vm_compute; reflexivity).
  clearbody x g. destruct x as [[u0|e|] s]; try contradiction. congruence.
Qed.
Print Assumptions remove_all_own_refuted.

(* A removal that was interrupted cannot be taken up again: staging a map node whose
   segment is gone makes an empty one, which does not decode, so that the second run
   fails with no step failing; the boot record stays. *)
Theorem remove_again_refuted : exists E R v f,
  sound E R v /\ parted E R v /\ typed E v /\
  match fs_remove E v false (mkSt R f []) with
  | (Err _, s) =>
      match fs_remove E v false (mkSt (s_repo s) [] []) with
      | (Err ECorrupt, s2) => r_refs (s_repo s2) (v_boot v) = true
      | _ => False
      end
  | _ => False
  end.
Proof.
  exists u_env, u_repo, (u_vol true), (u_bad 60).
  split; [apply u_sound|]. split; [apply u_parted|]. split; [apply u_typed|].
  vm_compute. reflexivity.
Qed.
Print Assumptions remove_again_refuted.
