(* What each namespace operation does to the table. *)
From Verif Require Import Base NameModel NameSpec NameProofs.

Definition wp {A} (m : M A) (Q : A -> ns -> Prop) (E : err -> ns -> Prop) (s : ns) : Prop :=
  forall o, match m o s with Ok a _ s' => Q a s' | Er e _ s' => E e s' | Abort => True end.

Lemma wp_bind {A B} (m : M A) (f : A -> M B) P Q E s :
  wp m P E s -> (forall a s', P a s' -> wp (f a) Q E s') -> wp (bind m f) Q E s.
Proof.
  intros H1 H2 o. unfold bind. specialize (H1 o). destruct (m o s) as [a o' s'|e o' s'|]; [|exact H1|exact Logic.I].
  apply (H2 a s' H1).
Qed.
Lemma wp_conseq {A} (m : M A) (P Q : A -> ns -> Prop) (D E : err -> ns -> Prop) s :
  wp m P D s -> (forall a s', P a s' -> Q a s') -> (forall e s', D e s' -> E e s') -> wp m Q E s.
Proof. intros H H1 H2 o. specialize (H o). destruct (m o s); auto. Qed.
Lemma wp_ret {A} (a : A) (Q : A -> ns -> Prop) E s : Q a s -> wp (ret a) Q E s.
Proof. intros H o. exact H. Qed.
Lemma wp_fail {A} e (Q : A -> ns -> Prop) (E : err -> ns -> Prop) s : E e s -> wp (fail e) Q E s.
Proof. intros H o. exact H. Qed.
Lemma wp_draw (Q : bool -> ns -> Prop) E s : (forall b, Q b s) -> wp draw Q E s.
Proof. intros H o. unfold draw. destruct o; apply H. Qed.
Lemma wp_may_fail (Q : unit -> ns -> Prop) (E : err -> ns -> Prop) s : Q tt s -> E EFAIL s -> wp may_fail Q E s.
Proof. intros H1 H2 o. unfold may_fail, bind, draw, ret, fail. destruct o as [|[] r]; assumption. Qed.
Lemma wp_state (Q : ns -> ns -> Prop) E s : Q s s -> wp state Q E s.
Proof. intros H o. exact H. Qed.
Lemma wp_update f (Q : unit -> ns -> Prop) E s : Q tt (f s) -> wp (update f) Q E s.
Proof. intros H o. exact H. Qed.
Lemma wp_require b e (Q : unit -> ns -> Prop) (E : err -> ns -> Prop) s : (b = true -> Q tt s) -> (b = false -> E e s) -> wp (require b e) Q E s.
Proof. intros H1 H2 o. unfold require. destruct b; [apply H1|apply H2]; reflexivity. Qed.

(* --- checks: the table stays; what is known after --- *)
Definition same {A} (s : ns) (P : A -> Prop) (a : A) (s' : ns) : Prop := s' = s /\ P a.
Notation stays s := (fun (_ : err) s' => s' = s).

Lemma wp_stage : forall k s, wp (stage k) (fun i s' => s' = s /\ get s k = Some i) (stays s) s.
Proof.
  intros. unfold stage. apply wp_bind with (P := fun _ s' => s' = s); [apply wp_may_fail; reflexivity|].
  intros _ s' ->. apply wp_bind with (P := fun a s' => a = s /\ s' = s); [apply wp_state; auto|].
  intros a s' [-> ->]. destruct (get s k); [apply wp_ret|apply wp_fail]; auto.
Qed.
Lemma wp_lookup : forall d n s, wp (lookup_by_name d n) (fun k s' => s' = s /\ entry s d n = Some k /\ isdir s d = true) (stays s) s.
Proof.
  intros. unfold lookup_by_name. eapply wp_bind; [apply wp_stage|]. intros di s' [-> G].
  apply wp_bind with (P := fun _ s' => s' = s /\ i_dir di = true); [apply wp_require; auto|]. intros _ s' [-> D].
  apply wp_bind with (P := fun _ s' => s' = s); [apply wp_may_fail; auto|]. intros _ s' ->.
  unfold entry, isdir. rewrite G. destruct (ent_of (i_ents di) n); [apply wp_ret|apply wp_fail]; auto.
Qed.
Lemma wp_stage_by_name : forall d n s, wp (stage_by_name d n)
  (fun p s' => s' = s /\ entry s d n = Some (fst p) /\ isdir s d = true /\ get s (fst p) = Some (snd p)) (stays s) s.
Proof.
  intros. unfold stage_by_name. eapply wp_bind; [apply wp_lookup|]. intros k s' [-> [E D]].
  eapply wp_bind; [apply wp_stage|]. intros i s' [-> G]. apply wp_ret. auto.
Qed.
Lemma wp_check_nodent : forall d n s, wp (check_nodent d n) (fun _ s' => s' = s /\ entry s d n = None) (stays s) s.
Proof.
  intros d n s o. unfold check_nodent, lookup_by_name, stage, may_fail, bind, draw, state, require, ret, fail, entry.
  destruct o as [|[] o]; [..|cbn; reflexivity|].
  all: destruct (get s d) as [di|] eqn:G; [|split; [reflexivity|]; reflexivity].
  all: destruct (i_dir di); [|reflexivity].
  - destruct (ent_of (i_ents di) n); auto.
  - destruct o as [|[] o]; [..|reflexivity|]; destruct (ent_of (i_ents di) n); auto.
Qed.
Lemma wp_check_dir_waccess : forall d s, wp (check_dir_waccess d) (fun _ s' => s' = s /\ isdir s d = true) (stays s) s.
Proof.
  intros. unfold check_dir_waccess. eapply wp_bind; [apply wp_stage|]. intros di s' [-> G].
  apply wp_bind with (P := fun _ s' => s' = s /\ i_dir di = true); [apply wp_require; auto|]. intros _ s' [-> D].
  apply wp_may_fail; [|reflexivity]. unfold isdir. rewrite G. auto.
Qed.
Lemma wp_check_add_dentry : forall d s, wp (check_add_dentry d)
  (fun _ s' => s' = s /\ exists di, get s d = Some di /\ i_dir di = true /\ 2 <= i_nlink di) (stays s) s.
Proof.
  intros. unfold check_add_dentry. eapply wp_bind; [apply wp_stage|]. intros di s' [-> G].
  apply wp_bind with (P := fun _ s' => s' = s /\ i_dir di = true); [apply wp_require; auto|]. intros _ s' [-> D].
  apply wp_bind with (P := fun _ s' => s' = s); [apply wp_may_fail; auto|]. intros _ s' ->.
  apply wp_bind with (P := fun _ s' => s' = s); [apply wp_require; auto|]. intros _ s' ->.
  apply wp_require; [|auto]. intros H. split; [reflexivity|]. exists di. repeat split; auto. lia.
Qed.
Lemma wp_check_dir_can_add : forall d n s, wp (check_dir_can_add d n)
  (fun _ s' => s' = s /\ entry s d n = None /\ exists di, get s d = Some di /\ i_dir di = true /\ 2 <= i_nlink di) (stays s) s.
Proof.
  intros. unfold check_dir_can_add. eapply wp_bind; [apply wp_check_dir_waccess|]. intros _ s' [-> _].
  eapply wp_bind; [apply wp_check_nodent|]. intros _ s' [-> E].
  eapply wp_conseq; [apply wp_check_add_dentry|..]; [|auto]. intros _ s' [-> H]. auto.
Qed.
Lemma wp_check_rmdir_child : forall k i s, wp (check_rmdir_child k i)
  (fun _ s' => s' = s /\ i_dir i = true /\ i_ents i = [] /\ k <> INO_ROOT) (stays s) s.
Proof.
  intros. unfold check_rmdir_child. apply wp_bind with (P := fun _ s' => s' = s); [apply wp_may_fail; auto|]. intros _ s' ->.
  apply wp_bind with (P := fun _ s' => s' = s /\ i_dir i = true); [apply wp_require; auto|]. intros _ s' [-> D].
  apply wp_bind with (P := fun _ s' => s' = s /\ dir_isempty i = true); [apply wp_require; auto|]. intros _ s' [-> F].
  apply wp_bind with (P := fun _ s' => s' = s /\ k <> INO_ROOT); [apply wp_require; auto|].
  { intros H. split; [reflexivity|]. intros ->. rewrite Z.eqb_refl in H. discriminate. }
  intros _ s' [-> N]. apply wp_may_fail; [|reflexivity]. repeat split; auto.
  unfold dir_isempty in F. apply andb_prop in F. destruct F as [_ F]. apply Z.eqb_eq in F.
  destruct (i_ents i); [reflexivity|]. rewrite zlen_cons in F. pose proof (zlen_nonneg _ l). lia.
Qed.

(* --- the changes --- *)
Definition removed (d : Z) (n : name) (k : Z) (s s' : ns) : Prop :=
  exists di ci, get s d = Some di /\ ent_of (i_ents di) n = Some k /\ get s k = Some ci /\
                s' = change s d k (-1) (fun l => ent_del l n).
Definition added (d : Z) (n : name) (k : Z) (s s' : ns) : Prop :=
  exists di ci, get s d = Some di /\ get s k = Some ci /\ s' = change s d k 1 (fun l => l ++ [(n, k)]).
Definition pruned (k : Z) (s s' : ns) : Prop :=
  s' = s \/ exists i, get s k = Some i /\ nlink_orphan i = true /\ i_nopen i = 0 /\ i_pin i = false /\
    (s' = set s k (with_lost (with_ents i []) true) \/ s' = del (set s k (with_lost (with_ents i []) true)) k).

Lemma wp_remove_dentry : forall d n s, wp (remove_dentry d n)
  (fun _ s' => exists k, entry s d n = Some k /\ removed d n k s s')
  (fun e s' => (s' = s /\ (e = EFAIL \/ ~ exists k i, entry s d n = Some k /\ isdir s d = true /\ get s k = Some i))
               \/ (e = EFAIL /\ exists k, entry s d n = Some k /\ removed d n k s s')) s.
Proof.
  intros d n s. unfold remove_dentry.
  apply wp_bind with (P := fun k s' => s' = s /\ entry s d n = Some k /\ isdir s d = true).
  { intros o. unfold lookup_by_name, stage, may_fail, bind, draw, state, require, ret, fail, entry, isdir.
    assert (X : forall di, get s d = Some di -> i_dir di = true ->
       forall o, match (match ent_of (i_ents di) n with Some k => fun o s => Ok k o s | None => fun o s => Er ENOENT o s end) o s with
       | Ok a _ s' => s' = s /\ ent_of (i_ents di) n = Some a /\ i_dir di = true
       | Er e _ s' => (s' = s /\ (e = EFAIL \/ ~ (exists (k : Z) (i : inode), ent_of (i_ents di) n = Some k /\ i_dir di = true /\ get s k = Some i)))
           \/ (e = EFAIL /\ exists k, ent_of (i_ents di) n = Some k /\ removed d n k s s')
       | Abort => True end).
    { intros di G D o'. destruct (ent_of (i_ents di) n) eqn:E; [auto|]. left. split; [reflexivity|]. right.
      intros [? [? [? _]]]. discriminate. }
    destruct o as [|[] o]; [..|cbn; auto|].
    all: destruct (get s d) as [di|] eqn:G; [|left; split; [reflexivity|]; right; intros [? [? [? _]]]; discriminate].
    all: destruct (i_dir di) eqn:D; [|left; split; [reflexivity|]; right; intros [? [? [_ [? _]]]]; discriminate].
    - specialize (X di eq_refl D []). rewrite D in X. exact X.
    - destruct o as [|[] o]; [..|cbn; auto|]; [specialize (X di eq_refl D [])|specialize (X di eq_refl D o)]; rewrite D in X; exact X. }
  intros k s' [-> [En Di]].
  apply wp_bind with (P := fun i s' => s' = s /\ get s k = Some i).
  { intros o. unfold stage, may_fail, bind, draw, state, ret, fail.
    destruct o as [|[] o]; [..|cbn; auto|]; (destruct (get s k) as [i|] eqn:G; [auto|]; left; split; [reflexivity|]; right;
    intros [k' [i [E [_ X]]]]; congruence). }
  intros ci s' [-> Gk].
  assert (Gd : exists di, get s d = Some di /\ ent_of (i_ents di) n = Some k).
  { unfold entry in En. destruct (get s d) as [di|]; [|discriminate]. eauto. }
  destruct Gd as [di [Gd Ed]].
  apply wp_bind with (P := fun _ s' => s' = put_ents s d (fun l => ent_del l n)).
  { apply wp_update. unfold put_ents. reflexivity. }
  intros _ s' ->.
  apply wp_bind with (P := fun _ s' => s' = change s d k (-1) (fun l => ent_del l n)).
  { intros o. rewrite update_nlink_eq. reflexivity. }
  intros _ s' ->.
  assert (R : removed d n k s (change s d k (-1) (fun l => ent_del l n))) by (exists di, ci; auto).
  apply wp_bind with (P := fun _ s' => s' = change s d k (-1) (fun l => ent_del l n)); [apply wp_state; auto|].
  intros a s' ->. destruct (get a d) as [da|]; [|apply wp_ret; eauto].
  destruct (i_ents da); [|apply wp_ret; eauto]. apply wp_may_fail; [eauto|right; eauto].
Qed.
Lemma wp_add_dentry : forall d n k s di ci, get s d = Some di -> get s k = Some ci ->
  wp (add_dentry d n k) (fun _ s' => added d n k s s') (fun e s' => e = EFAIL /\ s' = s) s.
Proof.
  intros d n k s di ci Gd Gk o. rewrite add_dentry_cases. destruct o as [|[] o]; auto; exists di, ci; auto.
Qed.
Lemma wp_do_add_dentry_f : forall d n k s di ci, get s d = Some di -> get s k = Some ci ->
  wp (do_add_dentry d n k false) (fun _ s' => added d n k s s') (fun e s' => e = EFAIL /\ s' = s) s.
Proof.
  intros d n k s di ci Gd Gk o. unfold do_add_dentry. pose proof (wp_add_dentry d n k s di ci Gd Gk o) as H.
  destruct (add_dentry d n k o s); auto.
Qed.
Lemma wp_do_add_dentry_t : forall d n k s di ci, get s d = Some di -> get s k = Some ci ->
  wp (do_add_dentry d n k true) (fun _ s' => added d n k s s') (fun e s' => s' = s \/ s' = del s k) s.
Proof.
  intros d n k s di ci Gd Gk o. unfold do_add_dentry. pose proof (wp_add_dentry d n k s di ci Gd Gk o) as H.
  destruct (add_dentry d n k o s) as [a o' s'|e o' s'|]; auto. destruct H as [-> ->].
  unfold remove_inode, may_fail, bind, draw, ret, fail, update. destruct o' as [|[] o']; auto.
Qed.
Lemma wp_drop_unlinked : forall k s i, get s k = Some i -> nlink_orphan i = true -> i_nopen i = 0 -> i_pin i = false ->
  wp (drop_unlinked k) (fun _ s' => s' = del (set s k (with_lost (with_ents i []) true)) k) (fun e s' => e = EFAIL /\ pruned k s s') s.
Proof.
  intros k s i G O N P. unfold drop_unlinked.
  apply wp_bind with (P := fun _ s' => s' = s); [apply wp_may_fail; [auto|split; [auto|left; auto]]|]. intros _ s' ->.
  apply wp_bind with (P := fun _ s' => s' = s); [apply wp_may_fail; [auto|split; [auto|left; auto]]|]. intros _ s' ->.
  apply wp_bind with (P := fun _ s' => s' = set s k (with_lost (with_ents i []) true)).
  { apply wp_update. rewrite G. reflexivity. }
  intros _ s' ->. unfold remove_inode.
  apply wp_bind with (P := fun _ s' => s' = set s k (with_lost (with_ents i []) true)).
  { apply wp_may_fail; [reflexivity|]. split; [reflexivity|]. right. exists i. auto 10. }
  intros _ s' ->. apply wp_update. reflexivity.
Qed.
(* after a pruning that reports success an orphan nobody holds is gone *)
Definition swept (k : Z) (s s' : ns) : Prop :=
  pruned k s s' /\ forall i, get s k = Some i -> nlink_orphan i = true -> i_nopen i = 0 -> i_pin i = false -> get s' k = None.
Lemma wp_try_prune : forall k s, wp (try_prune k) (fun _ s' => swept k s s') (fun e s' => e = EFAIL /\ pruned k s s') s.
Proof.
  intros k s. unfold try_prune. apply wp_bind with (P := fun a s' => a = s /\ s' = s); [apply wp_state; auto|].
  intros a s' [-> ->]. destruct (get s k) as [i|] eqn:G.
  2:{ apply wp_ret. split; [left; reflexivity|]. intros; congruence. }
  apply wp_bind with (P := fun _ s' => s' = s); [apply wp_draw; auto|]. intros busy s' ->.
  assert (Sw : forall x, x = del (set s k (with_lost (with_ents i []) true)) k -> nlink_orphan i = true -> i_nopen i = 0 -> i_pin i = false -> swept k s x).
  { intros x -> O N P. split; [right; exists i; auto 10|]. intros. rewrite get_del, Z.eqb_refl. reflexivity. }
  destruct (dropable i busy) eqn:D.
  - unfold dropable in D. apply andb_prop in D. destruct D as [D O]. apply andb_prop in D. destruct D as [D _].
    apply andb_prop in D. destruct D as [N P]. apply negb_true_iff in P. apply Z.eqb_eq in N.
    eapply wp_conseq; [apply wp_drop_unlinked; eassumption|..]; cbv beta; intros; auto.
  - destruct ((i_nopen i =? 0) && nlink_orphan i && negb (i_pin i)) eqn:C.
    + apply andb_prop in C. destruct C as [C P]. apply andb_prop in C. destruct C as [N O]. apply negb_true_iff in P. apply Z.eqb_eq in N.
      apply wp_bind with (P := fun _ s' => s' = s); [apply wp_may_fail; [auto|split; [auto|left; auto]]|]. intros _ s' ->.
      intros o. pose proof (wp_drop_unlinked k s i G O N P o) as H. destruct (drop_unlinked k o s); auto.
    + apply wp_ret. split; [left; reflexivity|]. intros i' G' O N P. exfalso.
      assert (i' = i) by congruence. subst i'. rewrite N, O, P in C. discriminate.
Qed.

(* --- names before and after --- *)
Lemma entry_removed : forall d n k s s' e m, (forall d di, get s d = Some di -> NoDup (map fst (i_ents di))) ->
  removed d n k s s' -> entry s' e m = if (e =? d) && bytes_eqb n m then None else entry s e m.
Proof.
  intros d n k s s' e m ND [di [ci [Gd [E [Gk ->]]]]]. unfold entry.
  destruct (change_get s d k (-1) (fun l => ent_del l n) e di ci Gd Gk) as [p ->].
  destruct (get s e) as [i|] eqn:Ge; [|destruct (_ && _); reflexivity]. cbn [i_ents].
  destruct (Z.eqb_spec e d) as [->|]; cbn [andb]; [|reflexivity]. apply ent_of_del. eauto.
Qed.
Lemma entry_added : forall d n k s s' e m, added d n k s s' -> entry s' e m =
  match entry s e m with Some x => Some x | None => if (e =? d) && bytes_eqb n m then Some k else None end.
Proof.
  intros d n k s s' e m [di [ci [Gd [Gk ->]]]]. unfold entry.
  destruct (change_get s d k 1 (fun l => l ++ [(n, k)]) e di ci Gd Gk) as [p ->].
  destruct (Z.eqb_spec e d) as [->|N]; cbn [andb].
  - rewrite Gd. cbn [i_ents]. apply ent_of_app.
  - destruct (get s e) as [i|]; [|reflexivity]. cbn [i_ents]. destruct (ent_of (i_ents i) m); reflexivity.
Qed.
Lemma get_pruned : forall k s s' e, pruned k s s' -> e <> k -> get s' e = get s e.
Proof.
  intros k s s' e [->|[i [G [O [N [P [->| ->]]]]]]] Ne; [reflexivity|..]; rewrite ?get_del, ?get_set;
  destruct (Z.eqb_spec e k); congruence.
Qed.
Lemma entry_pruned : forall k s s' e m, pruned k s s' -> (forall i, get s k = Some i -> i_ents i = []) -> entry s' e m = entry s e m.
Proof.
  intros k s s' e m H He. destruct (Z.eq_dec e k) as [->|N]; [|unfold entry; rewrite (get_pruned _ _ _ _ H N); reflexivity].
  destruct H as [->|[i [G [O [N [P [->| ->]]]]]]]; [reflexivity|..]; unfold entry.
  - rewrite get_set, Z.eqb_refl, G. cbn. rewrite (He _ G). reflexivity.
  - rewrite get_del, Z.eqb_refl, G, (He _ G). reflexivity.
Qed.
(* one inode before and after an entry change *)
Definition akin (i i' : inode) : Prop := i_dir i' = i_dir i /\ i_nopen i' = i_nopen i /\ i_pin i' = i_pin i /\ i_lost i' = i_lost i.
Lemma get_removed : forall d n k s s' j, removed d n k s s' ->
  match get s j with Some i => exists i', get s' j = Some i' /\ akin i i' /\ (j <> d -> i_ents i' = i_ents i) | None => get s' j = None end.
Proof.
  intros d n k s s' j [di [ci [Gd [E [Gk ->]]]]]. destruct (change_get s d k (-1) (fun l => ent_del l n) j di ci Gd Gk) as [p ->].
  destruct (get s j); [|reflexivity]. eexists. split; [reflexivity|]. split; [repeat split|]. cbn [i_ents].
  intros N. destruct (Z.eqb_spec j d); [congruence|reflexivity].
Qed.
Lemma get_added : forall d n k s s' j, added d n k s s' ->
  match get s j with Some i => exists i', get s' j = Some i' /\ akin i i' /\ (j <> d -> i_ents i' = i_ents i) | None => get s' j = None end.
Proof.
  intros d n k s s' j [di [ci [Gd [Gk ->]]]]. destruct (change_get s d k 1 (fun l => l ++ [(n, k)]) j di ci Gd Gk) as [p ->].
  destruct (get s j); [|reflexivity]. eexists. split; [reflexivity|]. split; [repeat split|]. cbn [i_ents].
  intros N. destruct (Z.eqb_spec j d); [congruence|reflexivity].
Qed.
Lemma isdir_removed : forall d n k s s' j, removed d n k s s' -> isdir s' j = isdir s j.
Proof. intros d n k s s' j [di [ci [Gd [E [Gk ->]]]]]. eapply change_isdir; eauto. Qed.
Lemma isdir_added : forall d n k s s' j, added d n k s s' -> isdir s' j = isdir s j.
Proof. intros d n k s s' j [di [ci [Gd [Gk ->]]]]. eapply change_isdir; eauto. Qed.
Lemma names_removed : forall d n k s s' j, removed d n k s s' -> names s' j = names s j - (if k =? j then 1 else 0).
Proof.
  intros d n k s s' j [di [ci [Gd [E [Gk ->]]]]]. rewrite (change_names _ _ _ _ _ _ _ Gd), (cnt_ent_del _ _ _ _ E). lia.
Qed.
Lemma names_added : forall d n k s s' j, added d n k s s' -> names s' j = names s j + (if k =? j then 1 else 0).
Proof.
  intros d n k s s' j [di [ci [Gd [Gk ->]]]]. rewrite (change_names _ _ _ _ _ _ _ Gd), cnt_app, cnt_one. lia.
Qed.

Lemma inv_removed : forall x d n k s s', inv x s -> removed d n k s s' -> inv (k :: x) s'.
Proof. intros x d n k s s' I [di [ci [Gd [E [Gk ->]]]]]. eapply inv_rm; eauto. Qed.
Lemma inv_added : forall x d n k s s', inv x s -> added d n k s s' -> isdir s d = true -> entry s d n = None ->
  (isdir s k = true -> names s k = 0 /\ k <> INO_ROOT) -> (d = INO_ROOT \/ 0 < names s d \/ In d x) -> inv x s'.
Proof.
  intros x d n k s s' I [di [ci [Gd [Gk ->]]]] D E H A. unfold isdir, entry in *. rewrite Gd in *. rewrite Gk in *.
  eapply inv_add; eauto.
Qed.
Lemma inv_pruned : forall k s s', inv [] s -> pruned k s s' -> inv [] s'.
Proof.
  intros k s s' I [->|[i [G [O [N [P H]]]]]]; [exact I|].
  destruct (orphan_nameless _ _ _ I G O) as [N0 [He Kr]].
  assert (I2 : inv [] (set s k (with_lost (with_ents i []) true))).
  { apply inv_set with (i := i); [exact I|exact G|reflexivity|reflexivity|cbn; congruence|cbn; lia]. }
  destruct H as [->| ->]; [exact I2|]. apply inv_del; [exact I2| |exact Kr|].
  - rewrite (names_set _ _ _ _ _ G), He. cbn. lia.
  - intros j Gj. rewrite get_set, Z.eqb_refl, G in Gj. injection Gj as <-. reflexivity.
Qed.

Lemma names_pruned : forall k s s' j, inv [] s -> pruned k s s' -> names s' j = names s j.
Proof.
  intros k s s' j I [->|[i [G [O [N [P H]]]]]]; [reflexivity|].
  destruct (orphan_nameless _ _ _ I G O) as [N0 [He Kr]].
  assert (X : names (set s k (with_lost (with_ents i []) true)) j = names s j).
  { rewrite (names_set _ _ _ _ _ G), He. cbn. lia. }
  destruct H as [->| ->]; [exact X|]. rewrite names_del; [exact X|rewrite keys_set; exact (inv_keys _ _ I)|].
  intros a Ga. rewrite get_set, Z.eqb_refl, G in Ga. injection Ga as <-. reflexivity.
Qed.

(* --- open files stay; nameless ones do not pile up --- *)
Definition safe (x : list Z) (s s' : ns) : Prop := forall j i, ~ In j x -> get s j = Some i -> 0 < i_nopen i ->
  exists i', get s' j = Some i' /\ i_nopen i <= i_nopen i' /\ i_lost i' = i_lost i /\ i_dir i' = i_dir i.
Definition tidy (s : ns) : Prop := forall k i, get s k = Some i -> k <> INO_ROOT -> names s k = 0 ->
  0 < i_nopen i \/ i_pin i = true.

Lemma safe_refl : forall x s, safe x s s.
Proof. intros x s j i _ G N. exists i. repeat split; auto. lia. Qed.
Lemma safe_trans : forall x a b c, safe x a b -> safe x b c -> safe x a c.
Proof.
  intros x a b c H1 H2 j i Nx G N. destruct (H1 j i Nx G N) as [i1 [G1 [N1 [L1 D1]]]].
  destruct (H2 j i1 Nx G1) as [i2 [G2 [N2 [L2 D2]]]]; [lia|]. exists i2. repeat split; [exact G2|lia|congruence|congruence].
Qed.
Lemma safe_removed : forall x d n k s s', removed d n k s s' -> safe x s s'.
Proof.
  intros x d n k s s' H j i _ G N. pose proof (get_removed _ _ _ _ _ j H) as X. rewrite G in X.
  destruct X as [i' [G' [[A1 [A2 [A3 A4]]] _]]]. exists i'. repeat split; [exact G'|lia|exact A4|exact A1].
Qed.
Lemma safe_added : forall x d n k s s', added d n k s s' -> safe x s s'.
Proof.
  intros x d n k s s' H j i _ G N. pose proof (get_added _ _ _ _ _ j H) as X. rewrite G in X.
  destruct X as [i' [G' [[A1 [A2 [A3 A4]]] _]]]. exists i'. repeat split; [exact G'|lia|exact A4|exact A1].
Qed.
Lemma safe_pruned : forall x k s s', pruned k s s' -> safe x s s'.
Proof.
  intros x k s s' H j i _ G N. destruct (Z.eq_dec j k) as [->|Nj].
  - destruct H as [->|[i' [G' [_ [N0 _]]]]]; [exists i; repeat split; auto; lia|].
    assert (i' = i) by congruence. subst. lia.
  - rewrite (get_pruned _ _ _ _ H Nj), G. exists i. repeat split; auto. lia.
Qed.
Lemma nameless_orphan : forall s k i, inv [] s -> get s k = Some i -> k <> INO_ROOT -> names s k = 0 -> nlink_orphan i = true.
Proof.
  intros s k i I G Kr N0. pose proof (inv_links _ _ I _ _ G) as L. unfold nlink_orphan.
  destruct (i_dir i) eqn:D; [|lia]. pose proof (inv_dead _ _ I k i G Kr N0 (fun X => X)) as X. rewrite X in L.
  destruct (Z.eqb_spec k INO_ROOT); [congruence|]. unfold subdirs in L. cbn in L. lia.
Qed.
(* tidy but for k, then swept *)
Lemma tidy_swept : forall k s s', inv [] s -> swept k s s' ->
  (forall j i, j <> k -> get s j = Some i -> j <> INO_ROOT -> names s j = 0 -> 0 < i_nopen i \/ i_pin i = true) -> tidy s'.
Proof.
  intros k s s' I [P W] T j i G Jr N0. rewrite (names_pruned _ _ _ _ I P) in N0.
  destruct (Z.eq_dec j k) as [->|Nj].
  - destruct (get s k) as [i0|] eqn:G0.
    + pose proof (nameless_orphan _ _ _ I G0 Jr N0) as O. pose proof (inv_open _ _ I _ _ G0) as Op.
      destruct (Z.eq_dec (i_nopen i0) 0) as [Z0|Z0].
      * destruct (i_pin i0) eqn:Pi; [|rewrite (W i0 eq_refl O Z0 Pi) in G; discriminate].
        destruct P as [->|[i1 [G1 [_ [_ [P1 _]]]]]]; [|congruence]. assert (i = i0) by congruence. subst. auto.
      * destruct P as [->|[i1 [G1 [_ [P1 _]]]]]; [|congruence]. assert (i = i0) by congruence. subst. left. lia.
    + destruct P as [->|[i1 [G1 _]]]; congruence.
  - rewrite (get_pruned _ _ _ _ P Nj) in G. eauto.
Qed.

(* what holds after an operation, whatever its outcome; and after success *)
Definition good (x : list Z) (s : ns) (s' : ns) : Prop := inv [] s' /\ safe x s s'.
Definition fine (x : list Z) (s : ns) (s' : ns) : Prop := inv [] s' /\ safe x s s' /\ (tidy s -> tidy s').
Lemma fine_good : forall x s s', fine x s s' -> good x s s'.
Proof. intros x s s' [A [B _]]. split; assumption. Qed.
Notation outcome op x s := (wp op (fun _ s' => fine x s s') (fun _ s' => good x s s') s).

Lemma spawn_set_safe : forall x s k e, get s k = None -> safe x s ((k, e) :: s).
Proof.
  intros x s k e Gk j i _ G N. exists i. cbn [get]. destruct (Z.eqb_spec k j); [congruence|]. repeat split; auto. lia.
Qed.
Lemma safe_spawn_del : forall x s k e, get s k = None -> safe x s (del ((k, e) :: s) k).
Proof.
  intros x s k e Gk j i _ G N. exists i. rewrite get_del. destruct (Z.eqb_spec j k); [congruence|].
  cbn [get]. destruct (Z.eqb_spec k j); [congruence|]. repeat split; auto. lia.
Qed.
Lemma inv_spawn_del : forall s k dir p, inv [] s -> get s k = None ->
  inv [] (del ((k, mkIno dir (if dir then 1 else 0) p 0 false [] false) :: s) k).
Proof.
  intros s k dir p I Gk. destruct (inv_spawn [] s k dir p I Gk) as [I1 N1]. apply inv_del; [exact I1|..].
  - rewrite names_cons. cbn. lia.
  - intros ->. destruct (inv_root _ _ I) as [[r [Gr _]] _]. congruence.
  - intros i. cbn [get]. rewrite Z.eqb_refl. intros [= <-]. reflexivity.
Qed.
Definition spawned (s : ns) (k : Z) (dir : bool) (p : Z) (s1 : ns) : Prop :=
  get s k = None /\ s1 = (k, mkIno dir (if dir then 1 else 0) p 0 false [] false) :: s.
Lemma wp_spawn : forall k dir p s, wp (spawn k dir p) (fun _ s' => spawned s k dir p s') (stays s) s.
Proof.
  intros. unfold spawn. apply wp_bind with (P := fun _ s' => s' = s); [apply wp_may_fail; auto|]. intros _ s' ->.
  apply wp_bind with (P := fun a s' => a = s /\ s' = s); [apply wp_state; auto|]. intros a s' [-> ->].
  destruct (get s k) eqn:G; [apply wp_fail; auto|]. destruct (k =? INO_NULL); [apply wp_fail; auto|].
  apply wp_update. split; auto.
Qed.
(* a new inode gets its name *)
Definition named (s : ns) (k : Z) (s' : ns) : Prop := fine [] s s' /\ 0 < names s' k /\ exists i, get s' k = Some i.
Lemma wp_name_it : forall s d n k dir p s1, inv [] s -> entry s d n = None ->
  (exists di, get s d = Some di /\ i_dir di = true /\ 2 <= i_nlink di) -> spawned s k dir p s1 ->
  wp (do_add_dentry d n k true) (fun _ s' => named s k s') (fun _ s' => good [] s s') s1.
Proof.
  intros s d n k dir p s1 I En [di [Gd [Dd Ld]]] [Gk E1].
  destruct (inv_spawn [] s k dir p I Gk) as [I1 N1]. rewrite <- E1 in I1.
  assert (Nd : d <> k) by congruence.
  assert (Gd1 : get s1 d = Some di) by (rewrite E1; cbn [get]; destruct (Z.eqb_spec k d); [congruence|exact Gd]).
  assert (Gk1 : get s1 k = Some (mkIno dir (if dir then 1 else 0) p 0 false [] false)) by (rewrite E1; cbn [get]; rewrite Z.eqb_refl; reflexivity).
  assert (S1 : safe [] s s1) by (rewrite E1; apply spawn_set_safe; exact Gk).
  eapply wp_conseq; [eapply wp_do_add_dentry_t; eassumption|..]; cbv beta.
  - intros [] s' A.
    assert (Ns : forall j, names s1 j = names s j) by (intros; rewrite E1, names_cons; cbn; lia).
    assert (I' : inv [] s').
    { eapply inv_added; [exact I1|exact A|..].
      - unfold isdir. rewrite Gd1. exact Dd.
      - unfold entry in *. rewrite Gd1. rewrite Gd in En. exact En.
      - intros _. rewrite Ns. split; [exact N1|]. intros ->. destruct (inv_root _ _ I) as [[r [Gr _]] _]. congruence.
      - rewrite Ns. eapply alive_of_nlink; eauto. }
    split; [split; [exact I'|split]|split].
    + eapply safe_trans; [exact S1|]. eapply safe_added; eauto.
    + intros T j i G Jr N0. rewrite (names_added _ _ _ _ _ _ A), Ns in N0.
      pose proof (names_nonneg s j). destruct (Z.eqb_spec k j) as [->|Nj]; [lia|].
      pose proof (get_added _ _ _ _ _ j A) as X. destruct (get s1 j) as [i1|] eqn:G1; [|congruence].
      destruct X as [i' [G' [[A1 [A2 [A3 A4]]] _]]]. assert (i' = i) by congruence. subst i'.
      rewrite E1 in G1. cbn [get] in G1. destruct (Z.eqb_spec k j); [congruence|].
      rewrite A2, A3. apply (T j i1 G1 Jr). lia.
    + rewrite (names_added _ _ _ _ _ _ A), Z.eqb_refl, Ns, N1. lia.
    + pose proof (get_added _ _ _ _ _ k A) as X. rewrite Gk1 in X. destruct X as [i' [G' _]]. eauto.
  - intros e s' [->| ->]; split; [exact I1|exact S1|..].
    + rewrite E1. apply inv_spawn_del; assumption.
    + rewrite E1. apply safe_spawn_del; assumption.
Qed.
Lemma named_set : forall s k s' f, named s k s' -> (forall i, i_dir (f i) = i_dir i /\ i_nlink (f i) = i_nlink i /\ i_ents (f i) = i_ents i /\
  i_nopen i <= i_nopen (f i) /\ i_lost (f i) = i_lost i) ->
  fine [] s (match get s' k with Some i => set s' k (f i) | None => s' end).
Proof.
  intros s k s' f [[I [S T]] [N [i G]]] H. rewrite G. destruct (H i) as [H1 [H2 [H3 [H4 H5]]]].
  pose proof (inv_open _ _ I _ _ G).
  split; [|split].
  - apply inv_set with (i := i); auto. lia.
  - eapply safe_trans; [exact S|]. intros j a _ Ga Na. rewrite get_set, G.
    destruct (Z.eqb_spec j k) as [->|]; [|exists a; repeat split; auto; lia].
    assert (a = i) by congruence. subst a. eexists. split; [reflexivity|]. repeat split; [exact H4|exact H5|exact H1].
  - intros T0 j a Ga Jr N0. specialize (T T0). rewrite (names_set _ _ _ _ _ G), H3 in N0. rewrite get_set, G in Ga.
    destruct (Z.eqb_spec j k) as [->|]; [lia|]. apply (T j a Ga Jr). lia.
Qed.
Lemma good_refl : forall x s, inv [] s -> good x s s.
Proof. intros x s I. split; [exact I|apply safe_refl]. Qed.
Lemma fine_refl : forall x s, inv [] s -> fine x s s.
Proof. intros x s I. split; [exact I|split; [apply safe_refl|auto]]. Qed.

Lemma wp_stays_good {A} (m : M A) P x s : inv [] s -> wp m P (stays s) s -> wp m P (fun _ s' => good x s s') s.
Proof. intros I H. eapply wp_conseq; [exact H|auto|]. intros e s' ->. apply good_refl. exact I. Qed.

Lemma create_ok : forall d n k b s, inv [] s -> outcome (create d n k b) [] s.
Proof.
  intros d n k b s I. unfold create.
  eapply wp_bind; [apply wp_stays_good; [exact I|apply wp_check_dir_can_add]|]. intros _ s' [-> [En Hd]].
  apply wp_bind with (P := fun _ s' => s' = s); [apply wp_may_fail; [auto|apply good_refl; exact I]|]. intros _ s' ->.
  eapply wp_bind; [apply wp_stays_good; [exact I|apply wp_spawn]|]. intros [] s1 Sp. cbv beta in Sp.
  eapply wp_bind; [eapply wp_name_it; eassumption|]. intros [] s' Nm. cbv beta in Nm. destruct b.
  - apply wp_update. apply named_set with (f := fun i => with_nopen i (i_nopen i + 1)); [exact Nm|].
    intros i. repeat split. cbn. lia.
  - apply wp_ret. exact (proj1 Nm).
Qed.
Lemma mknod_ok : forall d n k s, inv [] s -> outcome (mknod d n k) [] s.
Proof.
  intros d n k s I. unfold mknod.
  eapply wp_bind; [apply wp_stays_good; [exact I|apply wp_check_dir_can_add]|]. intros _ s' [-> [En Hd]].
  apply wp_bind with (P := fun _ s' => s' = s); [apply wp_may_fail; [auto|apply good_refl; exact I]|]. intros _ s' ->.
  eapply wp_bind; [apply wp_stays_good; [exact I|apply wp_spawn]|]. intros [] s1 Sp. cbv beta in Sp.
  eapply wp_bind; [eapply wp_name_it; eassumption|]. intros [] s' Nm. cbv beta in Nm.
  apply wp_update. apply named_set with (f := fun i => with_pin i true); [exact Nm|]. intros i. repeat split. cbn. lia.
Qed.
Lemma mkdir_ok : forall d n k s, inv [] s -> outcome (mkdir d n k) [] s.
Proof.
  intros d n k s I. unfold mkdir.
  eapply wp_bind; [apply wp_stays_good; [exact I|apply wp_check_dir_can_add]|]. intros _ s' [-> [En Hd]].
  eapply wp_bind; [apply wp_stays_good; [exact I|apply wp_stage]|]. intros di s' [-> Gd].
  apply wp_bind with (P := fun _ s' => s' = s); [apply wp_require; [auto|intros; apply good_refl; exact I]|]. intros _ s' ->.
  eapply wp_bind; [apply wp_stays_good; [exact I|apply wp_spawn]|]. intros [] s1 Sp. cbv beta in Sp.
  eapply wp_conseq; [eapply wp_name_it; eassumption|..]; [|auto]. intros [] s' Nm. cbv beta in Nm. exact (proj1 Nm).
Qed.
Lemma symlink_ok : forall d n k s, inv [] s -> outcome (symlink d n k) [] s.
Proof.
  intros d n k s I. unfold symlink.
  eapply wp_bind; [apply wp_stays_good; [exact I|apply wp_check_dir_can_add]|]. intros _ s' [-> [En Hd]].
  apply wp_bind with (P := fun _ s' => s' = s); [apply wp_may_fail; [auto|apply good_refl; exact I]|]. intros _ s' ->.
  eapply wp_bind; [apply wp_stays_good; [exact I|apply wp_spawn]|]. intros [] s1 Sp. cbv beta in Sp.
  assert (G1 : good [] s s1 /\ good [] s (del s1 k)).
  { destruct Sp as [Gk ->]. split; split; [exact (proj1 (inv_spawn [] s k false d I Gk))|apply spawn_set_safe; exact Gk
      |apply inv_spawn_del with (dir := false); assumption|apply safe_spawn_del; exact Gk]. }
  apply wp_bind with (P := fun _ s' => s' = s1).
  { apply wp_bind with (P := fun _ s' => s' = s1); [apply wp_draw; auto|]. intros b s' ->. destruct b; [|apply wp_ret; auto].
    intros o. unfold remove_inode, may_fail, bind, draw, ret, fail, update. destruct o as [|[] o]; tauto. }
  intros _ s' ->. eapply wp_conseq; [eapply wp_name_it; eassumption|..]; [|auto]. intros [] s' Nm. cbv beta in Nm. exact (proj1 Nm).
Qed.
Lemma link_ok : forall d n k s, inv [] s -> (isdir s d = true -> d = INO_ROOT \/ 0 < names s d) -> outcome (link d n k) [] s.
Proof.
  intros d n k s I Al. unfold link.
  eapply wp_bind; [apply wp_stays_good; [exact I|apply wp_stage]|]. intros i s' [-> Gk].
  eapply wp_bind; [apply wp_stays_good; [exact I|apply wp_check_dir_waccess]|]. intros _ s' [-> Dd].
  apply wp_bind with (P := fun _ s' => s' = s /\ i_dir i = false).
  { apply wp_require; [|intros; apply good_refl; exact I]. intros H. apply negb_true_iff in H. auto. }
  intros _ s' [-> Di].
  eapply wp_bind; [apply wp_stays_good; [exact I|apply wp_check_nodent]|]. intros _ s' [-> En].
  apply wp_bind with (P := fun _ s' => s' = s); [apply wp_require; [auto|intros; apply good_refl; exact I]|]. intros _ s' ->.
  assert (Gd : exists di, get s d = Some di) by (unfold isdir in Dd; destruct (get s d); [eauto|discriminate]).
  destruct Gd as [di Gd].
  eapply wp_conseq; [eapply wp_do_add_dentry_f; eassumption|..]; cbv beta.
  2:{ intros e s' [_ ->]. apply good_refl. exact I. }
  intros [] s' A. split; [|split].
  - eapply inv_added; [exact I|exact A|exact Dd|exact En|..].
    + unfold isdir. rewrite Gk, Di. discriminate.
    + destruct (Al Dd); auto.
  - eapply safe_added; eauto.
  - intros T j a G Jr N0. rewrite (names_added _ _ _ _ _ _ A) in N0. pose proof (names_nonneg s j).
    destruct (k =? j); [lia|]. pose proof (get_added _ _ _ _ _ j A) as X. destruct (get s j) as [a1|] eqn:G1; [|congruence].
    destruct X as [i' [G' [[A1 [A2 [A3 A4]]] _]]]. assert (i' = a) by congruence. subst i'.
    rewrite A2, A3. apply (T j a1 G1 Jr). lia.
Qed.

(* removal of one name, then pruning *)
Lemma unname_prune : forall d n k i s, inv [] s -> entry s d n = Some k -> get s k = Some i -> i_ents i = [] ->
  outcome (remove_dentry d n;; try_prune k) [] s.
Proof.
  intros d n k i s I En Gk He.
  assert (Rm : forall s1, removed d n k s s1 -> inv [] s1).
  { intros s1 R. apply inv_settle with (k := k); [eapply inv_removed; eauto|]. intros a Ga. right.
    pose proof (get_removed _ _ _ _ _ k R) as X. rewrite Gk in X. destruct X as [i' [G' [_ X]]].
    assert (i' = a) by congruence. subst i'. destruct (Z.eq_dec k d) as [->|Nd]; [|rewrite X; auto].
    exfalso. unfold entry in En. rewrite Gk, He in En. discriminate. }
  apply wp_bind with (P := fun _ s1 => removed d n k s s1).
  - eapply wp_conseq; [apply wp_remove_dentry|..]; cbv beta.
    + intros _ s' [k' [E R]]. assert (k' = k) by congruence. subst. exact R.
    + intros e s' [[-> _]|[_ [k' [E R]]]]; [apply good_refl; exact I|]. assert (k' = k) by congruence. subst.
      split; [auto|eapply safe_removed; eauto].
  - intros [] s1 R. specialize (Rm s1 R).
    eapply wp_conseq; [apply wp_try_prune|..]; cbv beta.
    + intros [] s' W. split; [|split].
      * eapply inv_pruned; [exact Rm|exact (proj1 W)].
      * eapply safe_trans; [eapply safe_removed; exact R|eapply safe_pruned; exact (proj1 W)].
      * intros T. eapply tidy_swept; [exact Rm|exact W|]. intros j a Nj Ga Jr N0.
        rewrite (names_removed _ _ _ _ _ _ R) in N0. destruct (Z.eqb_spec k j); [congruence|].
        pose proof (get_removed _ _ _ _ _ j R) as X. destruct (get s j) as [a1|] eqn:G1; [|congruence].
        destruct X as [i' [G' [[A1 [A2 [A3 A4]]] _]]]. assert (i' = a) by congruence. subst i'.
        rewrite A2, A3. apply (T j a1 G1 Jr). lia.
    + intros e s' [_ P]. split; [eapply inv_pruned; eauto|].
      eapply safe_trans; [eapply safe_removed; exact R|eapply safe_pruned; exact P].
Qed.
Lemma unlink_ok : forall d n s, inv [] s -> outcome (unlink d n) [] s.
Proof.
  intros d n s I. unfold unlink.
  eapply wp_bind; [apply wp_stays_good; [exact I|apply wp_check_dir_waccess]|]. intros _ s' [-> Dd].
  eapply wp_bind; [apply wp_stays_good; [exact I|apply wp_stage_by_name]|]. intros [k i] s' [-> [En [_ Gk]]]. cbn [fst snd] in *.
  apply wp_bind with (P := fun _ s' => s' = s); [apply wp_may_fail; [auto|apply good_refl; exact I]|]. intros _ s' ->.
  apply wp_bind with (P := fun _ s' => s' = s /\ i_dir i = false).
  { apply wp_require; [|intros; apply good_refl; exact I]. intros H. apply negb_true_iff in H. auto. }
  intros _ s' [-> Di]. eapply unname_prune; eauto. eapply inv_file; eauto.
Qed.
Lemma rmdir_ok : forall d n s, inv [] s -> outcome (rmdir d n) [] s.
Proof.
  intros d n s I. unfold rmdir.
  eapply wp_bind; [apply wp_stays_good; [exact I|apply wp_check_dir_waccess]|]. intros _ s' [-> Dd].
  eapply wp_bind; [apply wp_stays_good; [exact I|apply wp_stage_by_name]|]. intros [k i] s' [-> [En [_ Gk]]]. cbn [fst snd] in *.
  eapply wp_bind; [apply wp_stays_good; [exact I|apply wp_check_rmdir_child]|]. intros _ s' [-> [Di [He Kr]]].
  eapply unname_prune; eauto.
Qed.
Lemma open_ok : forall k s, inv [] s -> outcome (open k) [] s.
Proof.
  intros k s I. unfold open.
  eapply wp_bind; [apply wp_stays_good; [exact I|apply wp_stage]|]. intros i s' [-> Gk].
  apply wp_bind with (P := fun _ s' => s' = s); [apply wp_may_fail; [auto|apply good_refl; exact I]|]. intros _ s' ->.
  apply wp_update. rewrite Gk. pose proof (inv_open _ _ I _ _ Gk). split; [|split].
  - apply inv_set with (i := i); auto. cbn. lia.
  - intros j a _ Ga Na. rewrite get_set, Gk. destruct (Z.eqb_spec j k) as [->|]; [|exists a; repeat split; auto; lia].
    assert (a = i) by congruence. subst. eexists. split; [reflexivity|]. cbn. repeat split. lia.
  - intros T j a Ga Jr N0. rewrite (names_set _ _ _ _ _ Gk) in N0. cbn [i_ents with_nopen] in N0. rewrite get_set, Gk in Ga.
    destruct (Z.eqb_spec j k) as [->|]; [|apply (T j a Ga Jr); lia].
    injection Ga as <-. left. cbn. lia.
Qed.
(* setting a field, then pruning *)
Lemma set_prune : forall k i i' x s, inv [] s -> get s k = Some i -> i_dir i' = i_dir i -> i_nlink i' = i_nlink i ->
  i_ents i' = i_ents i -> 0 <= i_nopen i' -> i_lost i' = i_lost i -> (i_nopen i <= i_nopen i' \/ In k x) ->
  wp (try_prune k) (fun _ s' => fine x s s') (fun _ s' => good x s s') (set s k i').
Proof.
  intros k i i' x s I Gk H1 H2 H3 H4 H5 H6.
  assert (I1 : inv [] (set s k i')) by (eapply inv_set; eauto).
  assert (S1 : safe x s (set s k i')).
  { intros j a Nx Ga Na. rewrite get_set, Gk. destruct (Z.eqb_spec j k) as [->|]; [|exists a; repeat split; auto; lia].
    assert (a = i) by congruence. subst. destruct H6; [|contradiction]. eexists. split; [reflexivity|]. auto. }
  eapply wp_conseq; [apply wp_try_prune|..]; cbv beta.
  - intros [] s' W. split; [|split].
    + eapply inv_pruned; [exact I1|exact (proj1 W)].
    + eapply safe_trans; [exact S1|eapply safe_pruned; exact (proj1 W)].
    + intros T. eapply tidy_swept; [exact I1|exact W|]. intros j a Nj Ga Jr N0.
      rewrite (names_set _ _ _ _ _ Gk), H3 in N0. rewrite get_set in Ga. destruct (Z.eqb_spec j k); [congruence|].
      apply (T j a Ga Jr). lia.
  - intros e s' [_ P]. split; [eapply inv_pruned; eauto|]. eapply safe_trans; [exact S1|eapply safe_pruned; exact P].
Qed.
Lemma release_ok : forall k s, inv [] s -> outcome (release k) [k] s.
Proof.
  intros k s I. unfold release.
  eapply wp_bind; [apply wp_stays_good; [exact I|apply wp_stage]|]. intros i s' [-> Gk].
  apply wp_bind with (P := fun _ s' => s' = s /\ i_nopen i <> 0).
  { apply wp_require; [|intros; apply good_refl; exact I]. intros H. split; [reflexivity|]. intros X. rewrite X in H. discriminate. }
  intros _ s' [-> No].
  apply wp_bind with (P := fun _ s' => s' = s); [apply wp_may_fail; [auto|apply good_refl; exact I]|]. intros _ s' ->.
  apply wp_bind with (P := fun _ s' => s' = set s k (with_nopen i (i_nopen i - 1))); [apply wp_update; rewrite Gk; reflexivity|].
  intros _ s' ->. pose proof (inv_open _ _ I _ _ Gk).
  apply set_prune with (i := i); auto. cbn. lia. right. left. reflexivity.
Qed.
Lemma forget_ok : forall k s, inv [] s -> outcome (forget k) [] s.
Proof.
  intros k s I. unfold forget. apply wp_bind with (P := fun a s' => a = s /\ s' = s); [apply wp_state; auto|]. intros a s' [-> ->].
  destruct (get s k) as [i|] eqn:Gk; [|apply wp_ret; apply fine_refl; exact I].
  destruct (i_pin i); [|apply wp_ret; apply fine_refl; exact I].
  apply wp_bind with (P := fun _ s' => s' = set s k (with_pin i false)); [apply wp_update; reflexivity|].
  intros _ s' ->. pose proof (inv_open _ _ I _ _ Gk). apply set_prune with (i := i); auto. left. cbn. lia.
Qed.
