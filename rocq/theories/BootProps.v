(* Boot records: theorems.  Model: BootModel.  Spec: BootSpec. *)
From Verif Require Import Base AddrModel WalkModel PackModel PackSpec PackProofs.
From Verif Require Import AddrProofs BootModel BootSpec BootProofs BootToy.

(* ---- C53: a boot record reads back as it was saved, and nothing else passes for it ---- *)
(* What save reports as saved is held under the name it gives; nothing else of the
   repository changes. *)
Theorem boot_saved : forall C pw r s c s', sized C -> brec_wf r ->
  boot_save C pw r s = (Ok c, s') ->
  held C pw (s_repo s') c r /\
  r_segs (s_repo s') = r_segs (s_repo s) /\ r_packs (s_repo s') = r_packs (s_repo s) /\
  (forall h, h <> ca_hash c -> r_blobs (s_repo s') h = r_blobs (s_repo s) h) /\
  (forall x, x <> c -> r_refs (s_repo s') x = r_refs (s_repo s) x).
Proof. intros. split; [eapply save_held; eauto|eapply save_keeps; eauto]. Qed.
Print Assumptions boot_saved.

Example boot_saved_ex :
  match boot_save b_crypto b_pw (b_rec 8 13) (mkSt b_repo [] []) with
  | (Ok c, s) => (ca_size c, ca_type c, r_refs (s_repo s) c,
                  match r_blobs (s_repo s) (ca_hash c) with Some e => length e | None => 0%nat end)
  | _ => (0, 0, false, 0%nat)
  end = (1024, 1, true, 1024%nat).
Proof. vm_compute. reflexivity. Qed.

(* A load that succeeds, on any repository and whatever fails, gives a record that the
   repository holds under that name and password: name and bytes agree, the digest inside
   agrees, the address is of a super-block, the cipher is supported.  It changes nothing. *)
Theorem boot_accepted : forall C pw c s r s', sized C ->
  boot_load C pw c s = (Ok r, s') ->
  s_repo s' = s_repo s /\ held C pw (s_repo s) c r /\
  ls_ltype (la_lsid (ua_laddr (br_uaddr r))) = 2 /\ ls_height (la_lsid (ua_laddr (br_uaddr r))) = 7 /\
  ua_voff (br_uaddr r) = 0 /\ br_algo r = 9 /\ (br_mode r = 3 \/ br_mode r = 9 \/ br_mode r = 13).
Proof.
  intros C pw c s r s' SC H. pose proof (load_held _ _ _ _ _ _ SC H) as (H1 & H2).
  split; [auto|]. split; [auto|].
  apply load_inv in H. destruct H as (_ & _ & e & _ & LE & _ & D).
  apply dec_says in D; [tauto|auto|]. rewrite firstn_length. lia.
Qed.
Print Assumptions boot_accepted.

(* a bit of the stored bytes changed; a supported cipher changed for another *)
Definition b_flip (i : nat) (e : bytes) : bytes := firstn i e ++ [Z.lxor (nth i e 0) 1] ++ skipn (S i) e.
Example boot_accepted_ex :
  match boot_save b_crypto b_pw (b_rec 8 13) (mkSt b_repo [] []) with
  | (Ok c, s) =>
      match r_blobs (s_repo s) (ca_hash c) with
      | Some e => (match boot_load b_crypto b_pw c s with (Ok r, _) => br_mode r | _ => 0 end,
                   fst (boot_load b_crypto b_pw c (mkSt (upd_blob (s_repo s) (ca_hash c) (b_flip 70 e)) [] [])),
                   boot_dec b_crypto b_pw (b_flip 70 e), boot_dec b_crypto b_pw (b_flip 44 e))
      | None => (0, Abort, Abort, Abort)
      end
  | _ => (0, Abort, Abort, Abort)
  end = (13, Err EBadboot, Err ECsum, Err ENosupp).
Proof. vm_compute. reflexivity. Qed.

(* What was saved loads, when nothing fails; and on any repository, at any later time and
   whatever fails, a load of that name gives that record or none (short of a clash of
   SHA-256). *)
Theorem boot_round_trip : forall C pw r s c s', sized C -> brec_wf r ->
  boot_save C pw r s = (Ok c, s') ->
  (forall d, fst (boot_load C pw c (mkSt (s_repo s') [] d)) = Ok r) /\
  (forall s2 r2 s2', no_clash C (s_repo s2) (boot_enc C pw r) ->
     boot_load C pw c s2 = (Ok r2, s2') -> r2 = r).
Proof.
  intros C pw r s c s' SC W H. split.
  - intros d. eapply load_back; eauto.
  - intros s2 r2 s2' NC L. eapply load_exact; eauto.
Qed.
Print Assumptions boot_round_trip.

Example boot_round_trip_ex :
  match boot_save b_crypto b_pw (b_rec 8 13) (mkSt b_repo [] []) with
  | (Ok c, s) => (fst (boot_load b_crypto b_pw c s), fst (boot_load b_crypto b_pw c (mkSt (s_repo s) [FGood; FBad 0] [])))
  | _ => (Abort, Abort)
  end = (Ok (b_rec 8 13), Err EIo).
Proof. vm_compute. reflexivity. Qed.

(* A save, finished or broken off at any point, leaves every record that was held as it
   was, of this password or another: also when it writes over the same name. *)
Theorem boot_save_spares : forall C pw r s x s' pw0 c0 r0, sized C -> brec_wf r ->
  boot_save C pw r s = (x, s') -> no_clash C (s_repo s) (boot_enc C pw r) ->
  held C pw0 (s_repo s) c0 r0 -> held C pw0 (s_repo s') c0 r0.
Proof. exact save_spares. Qed.
Print Assumptions boot_save_spares.

(* the second save of the record breaks off after 100 bytes; a third, of another, too *)
Example boot_save_spares_ex :
  match boot_save b_crypto b_pw (b_rec 8 13) (mkSt b_repo [] []) with
  | (Ok c, s) =>
      match boot_save b_crypto b_pw (b_rec 8 13) (mkSt (s_repo s) [FGood; FBad 100] []) with
      | (Err EIo, s2) =>
          match boot_save b_crypto b_pw (b_rec 11 9) (mkSt (s_repo s2) [FGood; FBad 100] []) with
          | (Err EIo, s3) => fst (boot_load b_crypto b_pw c (mkSt (s_repo s3) [] []))
          | _ => Abort
          end
      | _ => Abort
      end
  | _ => Abort
  end = Ok (b_rec 8 13).
Proof. vm_compute. reflexivity. Qed.

(* A wrong password: when the two key streams differ in both of their first words, the
   error is that of a bad key; when they differ in one of them, there is some error. *)
Theorem boot_wrong_password : forall C pw pw' r, sized C -> brec_wf r ->
  all_bytes (pad_of C pw) -> all_bytes (pad_of C pw') ->
  (part (pad_of C pw) 0 8 <> part (pad_of C pw') 0 8 -> part (pad_of C pw) 8 8 <> part (pad_of C pw') 8 8 ->
   boot_dec C pw' (boot_enc C pw r) = Err EKeyexp) /\
  (part (pad_of C pw) 0 8 <> part (pad_of C pw') 0 8 \/ part (pad_of C pw) 8 8 <> part (pad_of C pw') 8 8 ->
   exists e, boot_dec C pw' (boot_enc C pw r) = Err e).
Proof. exact wrong_password. Qed.
Print Assumptions boot_wrong_password.

Example boot_wrong_password_ex :
  (boot_dec b_crypto b_pw2 (boot_enc b_crypto b_pw (b_rec 8 13)), boot_dec b_crypto [] (boot_enc b_crypto b_pw (b_rec 8 13)))
  = (Err EKeyexp, Err EKeyexp).
Proof. vm_compute. reflexivity. Qed.

(* A saved record is what archiving and restoring take a boot record to be (PackSpec), and
   the load there is the load here. *)
Theorem boot_for_archive : forall C pw E, sized C ->
  (forall r s c s', brec_wf r -> boot_save C pw r s = (Ok c, s') ->
     boot_ok (boot_env C pw E) (s_repo s') c (boot_enc C pw r)) /\
  (forall c s r s', boot_load C pw c s = (Ok r, s') ->
     load_bootrec (boot_env C pw E) c s = (Ok (boot_plain C r), s')).
Proof.
  intros C pw E SC. split.
  - intros. eapply save_boot_ok; eauto.
  - intros c s r s' H. pose proof (boot_load_pack C pw E c s SC) as P. rewrite H in P. exact P.
Qed.
Print Assumptions boot_for_archive.

Definition b_env : env := mkEnv (b_dig 1) (fun _ => 0) (fun _ _ _ => None) (fun _ _ => None) (fun _ => None) (fun b => b).
Example boot_for_archive_ex :
  match boot_save b_crypto b_pw (b_rec 8 13) (mkSt b_repo [] []) with
  | (Ok c, s) => match load_bootrec (boot_env b_crypto b_pw b_env) c s with
                 | (Ok x, _) => bytes_eqb x (boot_plain b_crypto (b_rec 8 13)) | _ => false end
  | _ => false
  end = true.
Proof. vm_compute. reflexivity. Qed.

(* False: "the main key of a file-system is secret from one who holds the key of another".
   The key stream depends on the password alone, and so two records under one password,
   as stored, and the main key of the one, give the main key of the other. *)
Theorem boot_keys_apart_refuted : exists f : bytes -> bytes -> bytes -> bytes,
  forall C pw r1 r2, sized C -> brec_wf r1 -> brec_wf r2 ->
    f (boot_enc C pw r1) (boot_enc C pw r2) (br_key r1) = br_key r2.
Proof.
  exists (fun e1 e2 k => xor_bytes k (part (xor_bytes e1 e2) 64 32)).
  intros C pw r1 r2 SC W1 W2. rewrite streams_cancel by auto.
  rewrite part_xor by (rewrite !plain_length; auto). rewrite !plain_key by auto.
  rewrite <- xor_bytes_assoc, xor_self, (bw_key r1 W1).
  rewrite xor_bytes_comm. apply xor_bytes_zero. apply W2.
Qed.
Print Assumptions boot_keys_apart_refuted.

Example boot_keys_apart_ex :
  xor_bytes (repeat 8 32) (part (xor_bytes (boot_enc b_crypto b_pw (b_rec 8 13)) (boot_enc b_crypto b_pw (b_rec 77 9))) 64 32)
  = repeat 77 32.
Proof. vm_compute. reflexivity. Qed.

(* False: "only one who knows the password can make a record that loads under it".  One
   stored record and what it says are enough to make any other (the mode of the cipher
   authenticates, but its tag is neither stored nor checked). *)
Theorem boot_forge_refuted : exists f : bytes -> bytes -> bytes -> bytes,
  forall C pw r1 r2, sized C -> brec_wf r1 -> brec_wf r2 ->
    boot_dec C pw (f (boot_enc C pw r1) (boot_plain C r1) (boot_plain C r2)) = Ok r2.
Proof.
  exists (fun e1 p1 p2 => xor_bytes p2 (xor_bytes e1 p1)).
  intros C pw r1 r2 SC W1 W2.
  rewrite <- (boot_roundtrip C pw r2 SC W2). f_equal. unfold boot_enc.
  rewrite !seal_eq by (apply plain_length; auto). f_equal.
  rewrite xor_bytes_comm, <- xor_bytes_assoc, xor_self, xor_bytes_comm, plain_length by auto.
  apply xor_bytes_zero. apply pad_length; auto.
Qed.
Print Assumptions boot_forge_refuted.

Example boot_forge_ex :
  boot_dec b_crypto b_pw (xor_bytes (boot_plain b_crypto (b_rec 77 9))
    (xor_bytes (boot_enc b_crypto b_pw (b_rec 8 13)) (boot_plain b_crypto (b_rec 8 13)))) = Ok (b_rec 77 9).
Proof. vm_compute. reflexivity. Qed.

(* False: "a record that loads is stored again as the same bytes, under the same name".
   Reserved bytes are not checked, and are not kept. *)
Theorem boot_again_refuted : exists C pw e r, sized C /\ length e = 1024%nat /\
  brec_wf r /\ boot_dec C pw e = Ok r /\ boot_caddr_of C (boot_enc C pw r) <> boot_caddr_of C e.
Proof.
  exists b_crypto, b_pw, b_odd, (b_rec 8 13).
  split; [apply b_sized|]. split; [vm_compute; reflexivity|]. split; [apply b_wf; auto|].
  split; [vm_compute; reflexivity|].
  intro X. apply (f_equal (fun c => nth 0 (ca_hash c) 0)) in X. vm_compute in X. discriminate X.
Qed.
Print Assumptions boot_again_refuted.
