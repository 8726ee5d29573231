(* What a text says as a password: itself, but for blanks around it. *)
From Verif Require Import Base.
Definition blank (c : Z) : Prop := c = 0 \/ c = 32 \/ 9 <= c <= 13.
Definition is_pass (p : bytes) : Prop := p <> [] /\ (length p <= 255)%nat /\ Forall (fun c => 33 <= c <= 126) p.
Definition says (t p : bytes) : Prop := exists a b, t = a ++ p ++ b /\ Forall blank a /\ Forall blank b /\ is_pass p.
