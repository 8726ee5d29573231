(* A toy crypto library and two records for the examples of BootProps: digests are sums,
   the key stream depends on the password. *)
From Verif Require Import Base AddrModel WalkModel PackModel BootModel BootSpec.

Fixpoint b_sum (m : Z) (x : bytes) : Z := match x with [] => m | a :: r => (b_sum (m + 2) r * 257 + a + 1) mod 2 ^ 61 end.
Definition b_dig (m : Z) (x : bytes) : bytes := le_enc 32 (b_sum m x).
Definition b_crypto : crypto := mkCrypto (b_dig 1) (b_dig 2)
  (fun pw => firstn 32 (pw ++ repeat 1 32)) (fun pw => firstn 16 (pw ++ repeat 2 16))
  (fun k i n => map (fun j => (nth 0 k 0 * 37 + nth 0 i 0 + Z.of_nat j * 11 + 5) mod 256) (seq 0 n)).

Lemma b_sized : sized b_crypto.
Proof.
  split; [intros; apply le_enc_length|]. split; [intros; apply le_enc_length|].
  intros. cbn. rewrite map_length, seq_length. auto.
Qed.

Lemma b_pad : forall pw, all_bytes (pad_of b_crypto pw).
Proof.
  intros pw. unfold pad_of, all_bytes. cbn [b_crypto c_stream]. apply Forall_forall. intros x Hx.
  destruct (length pw =? 0)%nat;
  (apply in_map_iff in Hx; destruct Hx as (j & <- & _); apply Z.mod_pos_bound; lia).
Qed.

(* key byte, mode *)
Definition b_rec (k m : Z) : brec :=
  mkBrec (mkUaddr (mkLaddr (mkLsid (repeat 5 16) 8192 0 1 7 2) 0 8192) 0) (repeat 6 16) 0 (repeat 7 16)
    (repeat k 32) (repeat 9 16) (mkPrange (repeat 4 16) 3 5 (-1)) 9 m.

Lemma b_wf : forall k m, m = 3 \/ m = 9 \/ m = 13 -> brec_wf (b_rec k m).
Proof. intros k m H. constructor; cbn; auto; lia. Qed.

Definition b_repo : repo := mkRepo (fun _ => None) (fun _ => None) (fun _ => None) (fun _ => false).
Definition b_pw : bytes := [115; 101].
Definition b_pw2 : bytes := [116; 101].

(* the record with a reserved byte that is not zero, and a digest to match *)
Definition b_odd_body : bytes := firstn 48 (boot_body (b_rec 8 13)) ++ [1] ++ skipn 49 (boot_body (b_rec 8 13)).
Definition b_odd : bytes := boot_seal b_crypto b_pw (b_odd_body ++ c_sha3 b_crypto b_odd_body).
