(* The mount daemon: a small system for the examples *)
From Verif Require Import Base MntModel MntSpec.

Definition y_a : bytes := [47; 109; 47; 97].                (* /m/a *)
Definition y_aa : bytes := [47; 109; 47; 97; 97].           (* /m/aa *)
Definition y_eq (p q : bytes) : bool := same_bytes p q.
Definition y_home : stat := mkStat 77 5 16877 2 1000.       (* a directory of user 1000 *)
Definition y_other : stat := mkStat 78 5 16877 2 1001.
Definition y_dev : stat := mkStat 3 6 8630 1 0.
Definition y_stat (p : bytes) : Z + stat :=
  if y_eq p y_a then inr y_home else if y_eq p dev_fuse then inr y_dev else inl 2.
Definition y_with (st : bytes -> Z + stat) (canon : bytes -> Z + bytes) : world :=
  mkWorld st (fun _ => inr 61267) canon (inr 9) 0 0 (fun _ => 0) 0.
Definition y_world : world := y_with y_stat (fun p => inr p).
Definition y_W : nat -> world := fun _ => y_world.
Definition y_F : conf := mkConf (Some [mkRule [47; 120] 7 false; mkRule y_a 1000 false]) 1 0 4096.
Definition y_c : cred := mkCred 1000 100.
Definition y_par (path : bytes) (flags : Z) (check : bool) : mpar :=
  mkMpar (Some path) flags 1000 100 16832 131072 false check.
Definition y_msg (cmd : Z) (p : mpar) : bytes :=
  match msg_setup y_F cmd p with inr m => msg_enc m | inl _ => [] end.
Definition y_s : dst := mkDst 0 [] (-1).
Definition y_opts : mopts := mkMopts 131072 9 16832 1000 100 false.
(* what was done to the system, without the bytes of the reply *)
Definition y_view (e : event) : event := match e with EvReply t b fd r => EvReply t (firstn 4 (skipn 12 b)) fd r | _ => e end.

Lemma y_real_of : forall st canon, (forall p e, st p = inl e -> 0 < e < 4096) -> (forall p, exists q, canon p = inr q) ->
  real_errors (fun _ => y_with st canon).
Proof.
  intros st canon H K t. cbn. split; [exact H|]. split; [discriminate|].
  split; [intros p e E; destruct (K p) as [q Eq]; congruence|]. split; [discriminate|].
  split; [intros fd E; inversion E; lia|]. lia.
Qed.
Lemma y_stat_real : forall p e, y_stat p = inl e -> 0 < e < 4096.
Proof. intros p e. unfold y_stat. destruct (y_eq p y_a); [discriminate|]. destruct (y_eq p dev_fuse); [discriminate|]. intros H. inversion H. lia. Qed.
Lemma y_real : real_errors y_W.
Proof. apply y_real_of; [apply y_stat_real|]. intros p. eauto. Qed.
