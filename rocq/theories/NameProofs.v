(* Invariants of the namespace. *)
From Verif Require Import Base NameModel NameSpec.

(* --- the table --- *)
Notation keys s := (map (@fst Z inode) s).

Lemma get_set : forall s k i j, get (set s k i) j = if j =? k then (match get s k with Some _ => Some i | None => None end) else get s j.
Proof.
  induction s as [|[a x] r IH]; intros k i j; cbn [set get]; [destruct (j =? k); reflexivity|].
  destruct (Z.eqb_spec a k) as [->|N]; cbn [get].
  - destruct (Z.eqb_spec k j) as [->|N2]; [rewrite Z.eqb_refl; reflexivity|].
    destruct (Z.eqb_spec j k); [congruence|]. reflexivity.
  - rewrite IH. destruct (Z.eqb_spec a j) as [->|N2]; [|reflexivity].
    destruct (Z.eqb_spec j k); [congruence|reflexivity].
Qed.
Lemma keys_set : forall s k i, keys (set s k i) = keys s.
Proof.
  induction s as [|[a x] r IH]; intros k i; cbn [set map fst]; [reflexivity|].
  destruct (a =? k); cbn [map fst]; [reflexivity|]. rewrite IH. reflexivity.
Qed.
Lemma get_in : forall s k i, get s k = Some i -> In k (keys s).
Proof.
  induction s as [|[a x] r IH]; intros k i; cbn [get map fst]; [discriminate|].
  destruct (Z.eqb_spec a k) as [->|N]; [left; reflexivity|]. intros H. right. eauto.
Qed.
Lemma get_del : forall s k j, get (del s k) j = if j =? k then None else get s j.
Proof.
  induction s as [|[a x] r IH]; intros k j; [cbn; destruct (j =? k); reflexivity|].
  unfold del in *. cbn [filter fst]. destruct (Z.eqb_spec a k) as [->|N]; cbn [negb get].
  - rewrite IH. destruct (Z.eqb_spec j k) as [->|]; [reflexivity|].
    destruct (Z.eqb_spec k j); [congruence|reflexivity].
  - rewrite IH. destruct (Z.eqb_spec a j) as [->|]; [|reflexivity].
    destruct (Z.eqb_spec j k); [congruence|reflexivity].
Qed.
Lemma keys_del : forall s k, keys (del s k) = filter (fun x => negb (x =? k)) (keys s).
Proof.
  induction s as [|[a x] r IH]; intros k; [reflexivity|]. unfold del in *. cbn [filter fst map].
  destruct (a =? k); cbn [negb map fst]; rewrite IH; reflexivity.
Qed.

Lemma names_cons : forall a x r k, names ((a, x) :: r) k = cnt k (i_ents x) + names r k.
Proof. intros. unfold names. cbn [map snd]. apply zsum_cons. Qed.
Lemma names_set : forall s d di x k, get s d = Some di ->
  names (set s d x) k = names s k - cnt k (i_ents di) + cnt k (i_ents x).
Proof.
  induction s as [|[a y] r IH]; intros d di x k; cbn [get set]; [discriminate|].
  destruct (a =? d).
  - intros [= <-]. rewrite !names_cons. lia.
  - intros H. rewrite !names_cons. rewrite (IH _ _ _ _ H). lia.
Qed.
Lemma cnt_nonneg : forall k l, 0 <= cnt k l.
Proof. intros. apply zlen_nonneg. Qed.
Lemma names_nonneg : forall s k, 0 <= names s k.
Proof.
  induction s as [|[a y] r IH]; intros k; [cbn; lia|]. rewrite names_cons.
  pose proof (cnt_nonneg k (i_ents y)). specialize (IH k). lia.
Qed.
Lemma names_ge : forall s d di k, get s d = Some di -> cnt k (i_ents di) <= names s k.
Proof.
  induction s as [|[a y] r IH]; intros d di k; cbn [get]; [discriminate|]. rewrite names_cons.
  destruct (a =? d).
  - intros [= <-]. pose proof (names_nonneg r k). lia.
  - intros H. specialize (IH _ _ k H). pose proof (cnt_nonneg k (i_ents y)). lia.
Qed.
Lemma names_del : forall s k j, NoDup (keys s) -> (forall i, get s k = Some i -> i_ents i = []) ->
  names (del s k) j = names s j.
Proof.
  induction s as [|[a y] r IH]; intros k j ND E; [reflexivity|].
  cbn [map fst] in ND. inversion ND as [|? ? Hn Hr]; subst.
  unfold del in *. cbn [filter fst]. destruct (Z.eqb_spec a k) as [->|N]; cbn [negb].
  - rewrite names_cons. assert (i_ents y = []) as -> by (apply E; cbn [get]; rewrite Z.eqb_refl; reflexivity).
    cbn. apply IH; [exact Hr|]. intros i Hi. exfalso. apply Hn. eapply get_in. exact Hi.
  - rewrite !names_cons. rewrite IH; [reflexivity|exact Hr|].
    intros i Hi. apply E. cbn [get]. destruct (Z.eqb_spec a k); [congruence|exact Hi].
Qed.

(* --- entries --- *)
Lemma cnt_app : forall k a b, cnt k (a ++ b) = cnt k a + cnt k b.
Proof. intros. unfold cnt. rewrite filter_app. apply zlen_app. Qed.
Lemma cnt_one : forall k n c, cnt k [(n, c)] = if c =? k then 1 else 0.
Proof. intros. unfold cnt. cbn [filter snd]. destruct (c =? k); reflexivity. Qed.
Lemma cnt_cons : forall k n c l, cnt k ((n, c) :: l) = (if c =? k then 1 else 0) + cnt k l.
Proof. intros. change ((n, c) :: l) with ([(n, c)] ++ l). rewrite cnt_app, cnt_one. reflexivity. Qed.
Lemma cnt_in : forall k n l, In (n, k) l -> 1 <= cnt k l.
Proof.
  induction l as [|[m c] r IH]; [intros []|]. rewrite cnt_cons. pose proof (cnt_nonneg k r).
  intros [E|H1]; [injection E as -> ->; rewrite Z.eqb_refl; lia|].
  specialize (IH H1). destruct (c =? k); lia.
Qed.
Lemma cnt_0 : forall k l, cnt k l = 0 -> forall n, ~ In (n, k) l.
Proof. intros k l H n Hi. apply cnt_in in Hi. lia. Qed.
Lemma ent_of_in : forall l n k, ent_of l n = Some k -> In (n, k) l.
Proof.
  induction l as [|[m c] r IH]; intros n k; cbn [ent_of]; [discriminate|].
  destruct (bytes_eqb m n) eqn:E; [|intros H; right; eauto].
  apply bytes_eqb_eq in E. subst. intros [= ->]. left; reflexivity.
Qed.
Lemma ent_of_none : forall l n, ent_of l n = None -> forall k, ~ In (n, k) l.
Proof.
  induction l as [|[m c] r IH]; intros n H k; [intros []|]. cbn [ent_of] in H.
  destruct (bytes_eqb m n) eqn:E; [discriminate|].
  intros [X|X]; [injection X as -> ->; rewrite bytes_eqb_refl in E; discriminate|]. exact (IH n H k X).
Qed.
Lemma cnt_ent_del : forall l n k j, ent_of l n = Some k -> cnt j (ent_del l n) = cnt j l - (if k =? j then 1 else 0).
Proof.
  induction l as [|[m c] r IH]; intros n k j; cbn [ent_of ent_del]; [discriminate|].
  destruct (bytes_eqb m n).
  - intros [= ->]. rewrite cnt_cons. lia.
  - intros H. rewrite !cnt_cons. rewrite (IH n k j H). lia.
Qed.
Lemma subdirs_app : forall s a b, subdirs s (a ++ b) = subdirs s a + subdirs s b.
Proof. intros. unfold subdirs. rewrite filter_app. apply zlen_app. Qed.
Lemma subdirs_cons : forall s n c l, subdirs s ((n, c) :: l) = (if isdir s c then 1 else 0) + subdirs s l.
Proof. intros. unfold subdirs. cbn [filter snd]. destruct (isdir s c); [rewrite zlen_cons|]; lia. Qed.
Lemma subdirs_ent_del : forall s l n k, ent_of l n = Some k ->
  subdirs s (ent_del l n) = subdirs s l - (if isdir s k then 1 else 0).
Proof.
  induction l as [|[m c] r IH]; intros n k; cbn [ent_of ent_del]; [discriminate|].
  destruct (bytes_eqb m n).
  - intros [= ->]. rewrite subdirs_cons. lia.
  - intros H. rewrite !subdirs_cons. rewrite (IH n k H). lia.
Qed.
Lemma subdirs_ext : forall s s' l, (forall n k, In (n, k) l -> isdir s' k = isdir s k) -> subdirs s' l = subdirs s l.
Proof.
  induction l as [|[m c] r IH]; intros H; [reflexivity|]. rewrite !subdirs_cons.
  rewrite (H m c) by (left; reflexivity). rewrite IH; [reflexivity|]. intros; apply (H n k); right; assumption.
Qed.
Lemma subdirs_nonneg : forall s l, 0 <= subdirs s l.
Proof. intros. apply zlen_nonneg. Qed.
Lemma in_ent_del : forall l n p, In p (ent_del l n) -> In p l.
Proof.
  induction l as [|[m c] r IH]; intros n p; cbn [ent_del]; [intros []|].
  destruct (bytes_eqb m n); [intros H; right; exact H|]. intros [H|H]; [left; exact H|right; eauto].
Qed.
Lemma in_ent_del_other : forall l n m k, In (m, k) l -> m <> n -> In (m, k) (ent_del l n).
Proof.
  induction l as [|[a c] r IH]; intros n m k; cbn [ent_del]; [intros []|].
  intros [E|H] N; destruct (bytes_eqb a n) eqn:B.
  - injection E as -> ->. apply bytes_eqb_eq in B. congruence.
  - left. exact E.
  - exact H.
  - right. auto.
Qed.
Lemma nodup_ent_del : forall l n, NoDup (map fst l) -> NoDup (map fst (ent_del l n)).
Proof.
  induction l as [|[a c] r IH]; intros n; cbn [ent_del map fst]; [auto|]. intros H.
  inversion H as [|? ? Hn Hr]; subst. destruct (bytes_eqb a n); [exact Hr|].
  cbn [map fst]. constructor; [|auto]. intros X. apply Hn. apply in_map_iff in X. destruct X as [p [E I1]].
  apply in_ent_del in I1. apply in_map_iff. eauto.
Qed.
Lemma ent_of_del : forall l n m, NoDup (map fst l) ->
  ent_of (ent_del l n) m = if bytes_eqb n m then None else ent_of l m.
Proof.
  induction l as [|[a c] r IH]; intros n m H; cbn [ent_del ent_of map fst] in *; [destruct (bytes_eqb n m); reflexivity|].
  inversion H as [|? ? Hn Hr]; subst. destruct (bytes_eqb a n) eqn:B.
  - apply bytes_eqb_eq in B. subst a. destruct (bytes_eqb n m) eqn:E; [|reflexivity].
    apply bytes_eqb_eq in E. subst m. destruct (ent_of r n) eqn:X; [|reflexivity].
    exfalso. apply Hn. apply ent_of_in in X. apply in_map_iff. exists (n, z). auto.
  - cbn [ent_of]. rewrite IH by exact Hr. destruct (bytes_eqb a m) eqn:E; [|reflexivity].
    destruct (bytes_eqb n m) eqn:E2; [|reflexivity].
    apply bytes_eqb_eq in E. apply bytes_eqb_eq in E2. subst. rewrite bytes_eqb_refl in B. discriminate.
Qed.
Lemma ent_of_app : forall l n k m, ent_of (l ++ [(n, k)]) m =
  match ent_of l m with Some x => Some x | None => if bytes_eqb n m then Some k else None end.
Proof.
  induction l as [|[a c] r IH]; intros n k m; cbn [app ent_of]; [reflexivity|].
  destruct (bytes_eqb a m); [reflexivity|apply IH].
Qed.

(* --- the two changes to a directory, field by field --- *)
Definition child_link (s : ns) (d k dif : Z) : ns :=
  match get s k with
  | Some c =>
    let c1 := with_nlink c (i_nlink c + dif) in
    let c2 := if 0 <? dif then with_parent c1 d
              else if i_parent c1 =? d then with_parent c1 INO_NULL else c1 in
    set s k c2
  | None => s
  end.
Definition dir_link (s : ns) (d k dif : Z) : ns :=
  if isdir s k then match get s d with Some di => set s d (with_nlink di (i_nlink di + dif)) | None => s end else s.
Definition put_ents (s : ns) (d : Z) (f : list (name * Z) -> list (name * Z)) : ns :=
  match get s d with Some di => set s d (with_ents di (f (i_ents di))) | None => s end.
Definition change (s : ns) (d k dif : Z) (f : list (name * Z) -> list (name * Z)) : ns :=
  let s1 := child_link (put_ents s d f) d k dif in dir_link s1 d k dif.

Lemma update_nlink_eq : forall d k dif o s,
  update_nlink d k dif o s = Ok tt o (dir_link (child_link s d k dif) d k dif).
Proof.
  intros. unfold update_nlink, bind, update, state. unfold dir_link, isdir. fold (child_link s d k dif).
  destruct (get (child_link s d k dif) k) as [c|]; [|reflexivity].
  destruct (i_dir c); reflexivity.
Qed.

(* the fields that matter *)
Lemma change_keys : forall s d k dif f, keys (change s d k dif f) = keys s.
Proof.
  intros. unfold change, dir_link, child_link, put_ents.
  destruct (get s d) as [di|]; [|destruct (get s k) as [c|]; [|destruct (isdir s k); [destruct (get s d)|]; rewrite ?keys_set; reflexivity]];
  repeat (match goal with |- context[match ?x with _ => _ end] => destruct x end); rewrite ?keys_set; reflexivity.
Qed.
Lemma change_get : forall s d k dif f j di ci, get s d = Some di -> get s k = Some ci ->
  exists p, get (change s d k dif f) j =
  match get s j with
  | None => None
  | Some i => Some (mkIno (i_dir i) (i_nlink i + (if j =? k then dif else 0) + (if (j =? d) && i_dir ci then dif else 0))
                          p (i_nopen i) (i_pin i) (if j =? d then f (i_ents i) else i_ents i) (i_lost i))
  end.
Proof.
  intros s d k dif f j di ci Hd Hk. unfold change.
  set (s1 := put_ents s d f).
  assert (G1 : forall x, get s1 x = match get s x with None => None | Some i => Some (if x =? d then with_ents i (f (i_ents i)) else i) end).
  { intros x. unfold s1, put_ents. rewrite Hd, get_set, Hd. destruct (Z.eqb_spec x d) as [->|N].
    - rewrite Hd. reflexivity.
    - destruct (get s x); reflexivity. }
  set (s2 := child_link s1 d k dif).
  assert (G2 : forall x, exists q, get s2 x = match get s x with None => None | Some i =>
     Some (mkIno (i_dir i) (i_nlink i + (if x =? k then dif else 0)) q (i_nopen i) (i_pin i) (if x =? d then f (i_ents i) else i_ents i) (i_lost i)) end).
  { intros x. unfold s2, child_link. rewrite G1, Hk. rewrite get_set, !G1, Hk.
    destruct (Z.eqb_spec x k) as [->|N].
    - rewrite Hk. cbn [with_nlink]. destruct (0 <? dif).
      + exists d. destruct (k =? d); reflexivity.
      + match goal with |- context[if ?b then _ else _] => destruct b end; eexists; destruct (k =? d); reflexivity.
    - destruct (get s x) as [i|]; [|exists 0; reflexivity]. exists (i_parent i).
      rewrite Z.add_0_r. destruct (x =? d); destruct i; reflexivity. }
  unfold dir_link. assert (Dk : isdir s2 k = i_dir ci).
  { unfold isdir. destruct (G2 k) as [q ->]. rewrite Hk. reflexivity. }
  rewrite Dk. destruct (i_dir ci).
  - destruct (G2 d) as [q Eq]. rewrite Hd, Z.eqb_refl in Eq. rewrite Eq, get_set, Eq.
    destruct (Z.eqb_spec j d) as [->|N].
    + exists q. rewrite Hd. reflexivity.
    + destruct (G2 j) as [q' ->]. exists q'. destruct (get s j); [|reflexivity]. rewrite (proj2 (Z.eqb_neq j d) N). cbn [andb]. rewrite Z.add_0_r. reflexivity.
  - destruct (G2 j) as [q' ->]. exists q'. destruct (get s j); [|reflexivity]. rewrite andb_false_r, Z.add_0_r. reflexivity.
Qed.
Lemma change_isdir : forall s d k dif f j di ci, get s d = Some di -> get s k = Some ci ->
  isdir (change s d k dif f) j = isdir s j.
Proof.
  intros s d k dif f j di ci Ed Ek. unfold isdir. destruct (change_get s d k dif f j di ci Ed Ek) as [p E].
  rewrite E. destruct (get s j); reflexivity.
Qed.
Lemma change_names : forall s d k dif f j di, get s d = Some di ->
  names (change s d k dif f) j = names s j - cnt j (i_ents di) + cnt j (f (i_ents di)).
Proof.
  intros s d k dif f j di Hd. unfold change. set (s1 := put_ents s d f).
  assert (E1 : names s1 j = names s j - cnt j (i_ents di) + cnt j (f (i_ents di))).
  { unfold s1, put_ents. rewrite Hd. rewrite (names_set s d di _ _ Hd). reflexivity. }
  rewrite <- E1. clearbody s1. clear E1.
  assert (E2 : names (child_link s1 d k dif) j = names s1 j).
  { unfold child_link. destruct (get s1 k) as [c|] eqn:Ek; [|reflexivity]. cbn zeta.
    rewrite (names_set s1 k c _ _ Ek). destruct (0 <? dif); [cbn; lia|].
    destruct (_ =? d); cbn; lia. }
  rewrite <- E2. generalize (child_link s1 d k dif). intros s2.
  unfold dir_link. destruct (isdir s2 k); [|reflexivity].
  destruct (get s2 d) as [x|] eqn:Ed; [|reflexivity]. rewrite (names_set s2 d x _ _ Ed). cbn. lia.
Qed.

Lemma add_dentry_cases : forall d n k o s,
  add_dentry d n k o s = match o with
                         | true :: r => Er EFAIL r s
                         | false :: r => Ok tt r (change s d k 1 (fun l => l ++ [(n, k)]))
                         | [] => Ok tt [] (change s d k 1 (fun l => l ++ [(n, k)]))
                         end.
Proof.
  intros. unfold add_dentry, may_fail, draw, bind, fail, ret, update. destruct o as [|[] r]; try reflexivity;
  rewrite update_nlink_eq; unfold change, put_ents; reflexivity.
Qed.

(* --- the invariant; x: directories in transit, allowed to hold entries though nameless --- *)
Record inv (x : list Z) (s : ns) : Prop := {
  inv_keys : NoDup (keys s);
  inv_links : links_exact s;
  inv_there : forall d di n k, get s d = Some di -> In (n, k) (i_ents di) -> exists i, get s k = Some i;
  inv_file : forall k i, get s k = Some i -> i_dir i = false -> i_ents i = [];
  inv_one : forall k i, get s k = Some i -> i_dir i = true -> names s k <= 1;
  inv_root : (exists i, get s INO_ROOT = Some i /\ i_dir i = true) /\ names s INO_ROOT = 0;
  inv_ndup : forall d di, get s d = Some di -> NoDup (map fst (i_ents di));
  inv_dead : forall k i, get s k = Some i -> k <> INO_ROOT -> names s k = 0 -> ~ In k x -> i_ents i = [];
  inv_open : forall k i, get s k = Some i -> 0 <= i_nopen i
}.

Lemma inv_weaken : forall x y s, inv x s -> (forall k, In k x -> In k y) -> inv y s.
Proof. intros x y s H Hi. destruct H. constructor; auto. intros k i G N0 N1 N2. eapply inv_dead0; eauto. Qed.

Lemma names_0_none : forall s k d di n, names s k = 0 -> get s d = Some di -> ~ In (n, k) (i_ents di).
Proof.
  intros s k d di n H G I1. apply cnt_in in I1. pose proof (names_ge s d di k G). lia.
Qed.

Lemma inv_add : forall x s d n k di ci, inv x s -> get s d = Some di -> i_dir di = true -> get s k = Some ci ->
  ent_of (i_ents di) n = None -> (i_dir ci = true -> names s k = 0 /\ k <> INO_ROOT) ->
  (d = INO_ROOT \/ 0 < names s d \/ In d x) ->
  inv x (change s d k 1 (fun l => l ++ [(n, k)])).
Proof.
  intros x s d n k di ci I Hd Dd Hk Hn Hc Ha.
  pose proof (change_get s d k 1 (fun l => l ++ [(n, k)])) as G.
  set (s' := change s d k 1 (fun l => l ++ [(n, k)])) in *.
  assert (N : forall j, names s' j = names s j + (if k =? j then 1 else 0)).
  { intros j. unfold s'. rewrite (change_names _ _ _ _ _ _ _ Hd). rewrite cnt_app, cnt_one. lia. }
  assert (D : forall j, isdir s' j = isdir s j) by (intros; eapply change_isdir; eassumption).
  assert (SD : forall l, subdirs s' l = subdirs s l) by (intros; apply subdirs_ext; auto).
  assert (Dk : isdir s k = i_dir ci) by (unfold isdir; rewrite Hk; reflexivity).
  assert (Inv : forall j i', get s' j = Some i' -> exists i p, get s j = Some i /\
     i' = mkIno (i_dir i) (i_nlink i + (if j =? k then 1 else 0) + (if (j =? d) && i_dir ci then 1 else 0)) p (i_nopen i) (i_pin i)
             (if j =? d then i_ents i ++ [(n, k)] else i_ents i) (i_lost i)).
  { intros j i' E. destruct (G j di ci Hd Hk) as [p E2]. rewrite E2 in E. destruct (get s j) as [i|]; [|discriminate].
    injection E as <-. eauto. }
  assert (Fwd : forall j i, get s j = Some i -> exists i', get s' j = Some i').
  { intros j i E. destruct (G j di ci Hd Hk) as [p E2]. rewrite E2, E. eauto. }
  assert (K : keys s' = keys s) by apply change_keys.
  clearbody s'. destruct I as [I1 I2 I3 I4 I5 I6 I7 I8 I9]. constructor.
  - rewrite K. exact I1.
  - intros j i' E. destruct (Inv _ _ E) as [i [p [Gj ->]]]. cbn [i_nlink i_dir i_ents].
    specialize (I2 j i Gj). rewrite I2, N.
    destruct (Z.eqb_spec j d) as [->|Nd]; cbn [andb].
    + assert (i = di) by congruence. subst i. rewrite Dd. rewrite SD, subdirs_app, subdirs_cons, Dk.
      change (subdirs s []) with 0.
      destruct (Z.eqb_spec d INO_ROOT) as [->|Nr].
      * destruct (Z.eqb_spec INO_ROOT k) as [<-|]; [|destruct (i_dir ci); lia].
        rewrite Hd in Hk. assert (di = ci) by congruence. subst ci. destruct (Hc Dd). congruence.
      * rewrite (Z.eqb_sym k d). destruct (d =? k); destruct (i_dir ci); lia.
    + rewrite (Z.eqb_sym k j). destruct (i_dir i) eqn:Di.
      * rewrite SD. destruct (Z.eqb_spec j k) as [->|Nk]; [|destruct (j =? INO_ROOT); lia].
        assert (i = ci) by congruence. subst. destruct (Hc Di) as [_ Nr]. destruct (Z.eqb_spec k INO_ROOT); [congruence|]. lia.
      * lia.
  - intros j i' m c E Hin. destruct (Inv _ _ E) as [i [p [Gj ->]]]. cbn [i_ents] in Hin.
    destruct (Z.eqb_spec j d) as [->|Nd].
    + apply in_app_iff in Hin. destruct Hin as [Hin|[Hin|[]]].
      * destruct (I3 _ _ _ _ Gj Hin) as [ic Gc]. eauto.
      * injection Hin as <- <-. eauto.
    + destruct (I3 _ _ _ _ Gj Hin) as [ic Gc]. eauto.
  - intros j i' E F. destruct (Inv _ _ E) as [i [p [Gj ->]]]. cbn [i_dir i_ents] in *.
    destruct (Z.eqb_spec j d) as [->|Nd]; [congruence|]. eauto.
  - intros j i' E F. destruct (Inv _ _ E) as [i [p [Gj ->]]]. cbn [i_dir] in F. rewrite N.
    destruct (Z.eqb_spec k j) as [->|Nk].
    + assert (i = ci) by congruence. subst. destruct (Hc F). lia.
    + specialize (I5 _ _ Gj F). lia.
  - destruct I6 as [[i [Gr Fr]] Nr]. split.
    + destruct (G INO_ROOT di ci Hd Hk) as [p E2]. rewrite Gr in E2. rewrite E2. eexists. split; [reflexivity|exact Fr].
    + rewrite N. destruct (Z.eqb_spec k INO_ROOT) as [->|]; [|lia].
      rewrite Gr in Hk. assert (i = ci) by congruence. subst i. destruct (Hc Fr). congruence.
  - intros j i' E. destruct (Inv _ _ E) as [i [p [Gj ->]]]. cbn [i_ents]. specialize (I7 _ _ Gj).
    destruct (Z.eqb_spec j d) as [->|Nd]; [|exact I7].
    assert (i = di) by congruence. subst i. rewrite map_app. cbn [map fst].
    apply NoDup_Add with (a := n) (l := map fst (i_ents di)).
    { rewrite <- (app_nil_r (map fst (i_ents di))) at 1. apply Add_app. }
    split; [exact I7|]. intros X. apply in_map_iff in X. destruct X as [[m c] [E1 E2]]. cbn in E1. subst m.
    exact (ent_of_none _ _ Hn c E2).
  - intros j i' E Nr N0 Nx. destruct (Inv _ _ E) as [i [p [Gj ->]]]. cbn [i_ents]. rewrite N in N0.
    pose proof (names_nonneg s j). destruct (Z.eqb_spec k j) as [->|Nk]; [lia|].
    destruct (Z.eqb_spec j d) as [->|Nd].
    + exfalso. destruct Ha as [Ha|[Ha|Ha]]; [congruence|lia|contradiction].
    + apply (I8 j i Gj Nr); [lia|exact Nx].
  - intros j i' E. destruct (Inv _ _ E) as [i [p [Gj ->]]]. cbn [i_nopen]. eauto.
Qed.

Lemma inv_rm : forall x s d n k di ci, inv x s -> get s d = Some di -> ent_of (i_ents di) n = Some k ->
  get s k = Some ci -> inv (k :: x) (change s d k (-1) (fun l => ent_del l n)).
Proof.
  intros x s d n k di ci I Hd Hn Hk.
  pose proof (change_get s d k (-1) (fun l => ent_del l n)) as G.
  set (s' := change s d k (-1) (fun l => ent_del l n)) in *.
  assert (N : forall j, names s' j = names s j - (if k =? j then 1 else 0)).
  { intros j. unfold s'. rewrite (change_names _ _ _ _ _ _ _ Hd). rewrite (cnt_ent_del _ _ _ _ Hn). lia. }
  assert (D : forall j, isdir s' j = isdir s j) by (intros; eapply change_isdir; eassumption).
  assert (SD : forall l, subdirs s' l = subdirs s l) by (intros; apply subdirs_ext; auto).
  assert (Dk : isdir s k = i_dir ci) by (unfold isdir; rewrite Hk; reflexivity).
  assert (Inv : forall j i', get s' j = Some i' -> exists i p, get s j = Some i /\
     i' = mkIno (i_dir i) (i_nlink i + (if j =? k then -1 else 0) + (if (j =? d) && i_dir ci then -1 else 0)) p (i_nopen i) (i_pin i)
             (if j =? d then ent_del (i_ents i) n else i_ents i) (i_lost i)).
  { intros j i' E. destruct (G j di ci Hd Hk) as [p E2]. rewrite E2 in E. destruct (get s j) as [i|]; [|discriminate].
    injection E as <-. eauto. }
  assert (Fwd : forall j i, get s j = Some i -> exists i', get s' j = Some i').
  { intros j i E. destruct (G j di ci Hd Hk) as [p E2]. rewrite E2, E. eauto. }
  assert (K : keys s' = keys s) by apply change_keys.
  assert (Nk : 1 <= names s k).
  { pose proof (names_ge s d di k Hd). pose proof (cnt_in _ _ _ (ent_of_in _ _ _ Hn)). lia. }
  clearbody s'. destruct I as [I1 I2 I3 I4 I5 I6 I7 I8 I9].
  assert (Kr : k <> INO_ROOT) by (intros ->; destruct I6; lia).
  assert (Dd : i_dir di = true).
  { destruct (i_dir di) eqn:E; [reflexivity|]. rewrite (I4 _ _ Hd E) in Hn. discriminate. }
  constructor.
  - rewrite K. exact I1.
  - intros j i' E. destruct (Inv _ _ E) as [i [p [Gj ->]]]. cbn [i_nlink i_dir i_ents].
    specialize (I2 j i Gj). rewrite I2, N.
    destruct (Z.eqb_spec j d) as [->|Nd]; cbn [andb].
    + assert (i = di) by congruence. subst i. rewrite Dd. rewrite SD, (subdirs_ent_del _ _ _ _ Hn), Dk.
      destruct (Z.eqb_spec d INO_ROOT) as [->|Nr].
      * destruct (Z.eqb_spec INO_ROOT k) as [<-|]; [congruence|]. destruct (i_dir ci); lia.
      * rewrite (Z.eqb_sym k d). destruct (d =? k); destruct (i_dir ci); lia.
    + rewrite (Z.eqb_sym k j). destruct (i_dir i) eqn:Di.
      * rewrite SD. destruct (Z.eqb_spec j k) as [->|Nk2]; [|destruct (j =? INO_ROOT); lia].
        destruct (Z.eqb_spec k INO_ROOT); [congruence|]. lia.
      * destruct (j =? k); lia.
  - intros j i' m c E Hin. destruct (Inv _ _ E) as [i [p [Gj ->]]]. cbn [i_ents] in Hin.
    assert (Hin2 : In (m, c) (i_ents i)) by (destruct (j =? d); [eapply in_ent_del|]; eassumption).
    destruct (I3 _ _ _ _ Gj Hin2) as [ic Gc]. eauto.
  - intros j i' E F. destruct (Inv _ _ E) as [i [p [Gj ->]]]. cbn [i_dir i_ents] in *.
    rewrite (I4 _ _ Gj F). destruct (j =? d); reflexivity.
  - intros j i' E F. destruct (Inv _ _ E) as [i [p [Gj ->]]]. cbn [i_dir] in F. rewrite N.
    specialize (I5 _ _ Gj F). destruct (k =? j); lia.
  - destruct I6 as [[i [Gr Fr]] Nr]. split.
    + destruct (G INO_ROOT di ci Hd Hk) as [p E2]. rewrite Gr in E2. rewrite E2. eexists. split; [reflexivity|exact Fr].
    + rewrite N. destruct (Z.eqb_spec k INO_ROOT); [congruence|lia].
  - intros j i' E. destruct (Inv _ _ E) as [i [p [Gj ->]]]. cbn [i_ents]. specialize (I7 _ _ Gj).
    destruct (j =? d); [apply nodup_ent_del|]; exact I7.
  - intros j i' E Nr N0 Nx. destruct (Inv _ _ E) as [i [p [Gj ->]]]. cbn [i_ents]. rewrite N in N0.
    destruct (Z.eqb_spec k j) as [->|Nj]; [exfalso; apply Nx; left; reflexivity|].
    rewrite (I8 j i Gj Nr); [destruct (j =? d); reflexivity|lia|]. intros X. apply Nx. right. exact X.
  - intros j i' E. destruct (Inv _ _ E) as [i [p [Gj ->]]]. cbn [i_nopen]. eauto.
Qed.

(* fields that names and counts do not depend on *)
Lemma inv_set : forall x s k i i', inv x s -> get s k = Some i -> i_dir i' = i_dir i -> i_nlink i' = i_nlink i ->
  i_ents i' = i_ents i -> 0 <= i_nopen i' -> inv x (set s k i').
Proof.
  intros x s k i i' I Gk Ed En Ee Ho.
  assert (G : forall j, get (set s k i') j = if j =? k then Some i' else get s j).
  { intros j. rewrite get_set, Gk. reflexivity. }
  assert (N : forall j, names (set s k i') j = names s j).
  { intros j. rewrite (names_set _ _ _ _ _ Gk), Ee. lia. }
  assert (D : forall j, isdir (set s k i') j = isdir s j).
  { intros j. unfold isdir. rewrite G. destruct (Z.eqb_spec j k) as [->|]; [rewrite Gk; exact Ed|reflexivity]. }
  assert (Inv : forall j a, get (set s k i') j = Some a -> exists b, get s j = Some b /\ i_dir a = i_dir b /\ i_nlink a = i_nlink b /\
      i_ents a = i_ents b /\ 0 <= i_nopen a).
  { intros j a. rewrite G. destruct (Z.eqb_spec j k) as [->|].
    - intros [= <-]. exists i. auto.
    - intros E. exists a. repeat split; auto. destruct I; eauto. }
  destruct I as [I1 I2 I3 I4 I5 I6 I7 I8 I9]. constructor.
  - rewrite keys_set. exact I1.
  - intros j a E. destruct (Inv _ _ E) as [b [Gb [X1 [X2 [X3 _]]]]]. rewrite X1, X2, X3, N.
    rewrite (subdirs_ext s (set s k i')); [apply (I2 j b Gb)|auto].
  - intros j a m c E Hin. destruct (Inv _ _ E) as [b [Gb [X1 [X2 [X3 _]]]]]. rewrite X3 in Hin.
    destruct (I3 _ _ _ _ Gb Hin) as [ic Gc]. rewrite G. destruct (c =? k); eauto.
  - intros j a E F. destruct (Inv _ _ E) as [b [Gb [X1 [X2 [X3 _]]]]]. rewrite X3. apply (I4 j b Gb). congruence.
  - intros j a E F. destruct (Inv _ _ E) as [b [Gb [X1 [X2 [X3 _]]]]]. rewrite N. apply (I5 j b Gb). congruence.
  - destruct I6 as [[r [Gr Fr]] Nr]. rewrite N. split; [|exact Nr]. rewrite G.
    destruct (Z.eqb_spec INO_ROOT k) as [<-|]; [|eauto]. exists i'. split; [reflexivity|]. congruence.
  - intros j a E. destruct (Inv _ _ E) as [b [Gb [X1 [X2 [X3 _]]]]]. rewrite X3. eauto.
  - intros j a E Nr N0 Nx. destruct (Inv _ _ E) as [b [Gb [X1 [X2 [X3 _]]]]]. rewrite X3. rewrite N in N0. eauto.
  - intros j a E. destruct (Inv _ _ E) as [b [Gb [X1 [X2 [X3 X4]]]]]. exact X4.
Qed.

Lemma nodup_filter {A} (f : A -> bool) : forall l, NoDup l -> NoDup (filter f l).
Proof.
  induction l as [|a r IH]; intros H; [constructor|]. inversion H as [|? ? Hn Hr]; subst. cbn [filter].
  destruct (f a); [constructor; [|auto]|auto]. intros X. apply filter_In in X. tauto.
Qed.

Lemma inv_del : forall x s k, inv x s -> names s k = 0 -> k <> INO_ROOT -> (forall i, get s k = Some i -> i_ents i = []) ->
  inv x (del s k).
Proof.
  intros x s k I Nk Kr He.
  assert (N : forall j, names (del s k) j = names s j).
  { intros j. apply names_del; [destruct I; assumption|exact He]. }
  assert (G : forall j a, get (del s k) j = Some a -> get s j = Some a /\ j <> k).
  { intros j a. rewrite get_del. destruct (Z.eqb_spec j k); [discriminate|auto]. }
  assert (SD : forall d di, get s d = Some di -> subdirs (del s k) (i_ents di) = subdirs s (i_ents di)).
  { intros d di Gd. apply subdirs_ext. intros n c Hin. unfold isdir. rewrite get_del.
    destruct (Z.eqb_spec c k) as [->|]; [|reflexivity]. exfalso. exact (names_0_none _ _ _ _ _ Nk Gd Hin). }
  destruct I as [I1 I2 I3 I4 I5 I6 I7 I8 I9]. constructor.
  - rewrite keys_del. apply nodup_filter. exact I1.
  - intros j a E. destruct (G _ _ E) as [Gb X]. rewrite N, (SD _ _ Gb). exact (I2 _ _ Gb).
  - intros j a m c E Hin. destruct (G _ _ E) as [Gb X]. destruct (I3 _ _ _ _ Gb Hin) as [ic Gc].
    rewrite get_del. destruct (Z.eqb_spec c k) as [->|]; [|eauto].
    exfalso. exact (names_0_none _ _ _ _ _ Nk Gb Hin).
  - intros j a E F. destruct (G _ _ E) as [Gb X]. eauto.
  - intros j a E F. destruct (G _ _ E) as [Gb X]. rewrite N. eauto.
  - destruct I6 as [[r [Gr Fr]] Nr]. rewrite N. split; [|exact Nr]. exists r. split; [|exact Fr].
    rewrite get_del. destruct (Z.eqb_spec INO_ROOT k); [congruence|exact Gr].
  - intros j a E. destruct (G _ _ E) as [Gb X]. eauto.
  - intros j a E Nr N0 Nx. destruct (G _ _ E) as [Gb X]. rewrite N in N0. eauto.
  - intros j a E. destruct (G _ _ E) as [Gb X]. eauto.
Qed.

Lemma names_in : forall s k, NoDup (keys s) -> names s k <> 0 -> exists d di n, get s d = Some di /\ In (n, k) (i_ents di).
Proof.
  induction s as [|[a y] r IH]; intros k ND H; [cbn in H; congruence|].
  cbn [map fst] in ND. inversion ND as [|? ? Hn Hr]; subst. rewrite names_cons in H.
  destruct (Z.eq_dec (cnt k (i_ents y)) 0) as [E|E].
  - destruct (IH k Hr) as [d [di [n [G Hin]]]]; [lia|]. exists d, di, n. split; [|exact Hin]. cbn [get].
    destruct (Z.eqb_spec a d) as [->|]; [|exact G]. exfalso. apply Hn. eapply get_in. exact G.
  - exists a, y. unfold cnt in E. destruct (filter (fun p => snd p =? k) (i_ents y)) as [|[n c] l] eqn:F; [cbn in E; congruence|].
    exists n. split; [cbn [get]; rewrite Z.eqb_refl; reflexivity|].
    assert (X : In (n, c) (filter (fun p => snd p =? k) (i_ents y))) by (rewrite F; left; reflexivity).
    apply filter_In in X. cbn [snd] in X. destruct X as [X1 X2]. apply Z.eqb_eq in X2. subst. exact X1.
Qed.

Lemma inv_spawn : forall x s k dir p, inv x s -> get s k = None ->
  inv x ((k, mkIno dir (if dir then 1 else 0) p 0 false [] false) :: s) /\ names s k = 0.
Proof.
  intros x s k dir p I Gk.
  assert (N : forall j, names ((k, mkIno dir (if dir then 1 else 0) p 0 false [] false) :: s) j = names s j).
  { intros j. rewrite names_cons. cbn. lia. }
  destruct I as [I1 I2 I3 I4 I5 I6 I7 I8 I9].
  assert (Nk : names s k = 0).
  { destruct (Z.eq_dec (names s k) 0) as [E|E]; [exact E|]. destruct (names_in s k I1 E) as [d [di [n [G Hin]]]].
    destruct (I3 _ _ _ _ G Hin). congruence. }
  assert (Kr : k <> INO_ROOT) by (intros ->; destruct I6 as [[r [Gr _]] _]; congruence).
  split; [|exact Nk].
  set (e := mkIno dir (if dir then 1 else 0) p 0 false [] false) in *.
  assert (G : forall j a, get ((k, e) :: s) j = Some a -> (j = k /\ a = e) \/ (j <> k /\ get s j = Some a)).
  { intros j a. cbn [get]. destruct (Z.eqb_spec k j) as [->|]; [intros [= <-]; auto|]. right. split; [congruence|assumption]. }
  assert (SD : forall d di, get s d = Some di -> subdirs ((k, e) :: s) (i_ents di) = subdirs s (i_ents di)).
  { intros d di Gd. apply subdirs_ext. intros n c Hin. unfold isdir. cbn [get].
    destruct (Z.eqb_spec k c) as [->|]; [|reflexivity]. exfalso. exact (names_0_none _ _ _ _ _ Nk Gd Hin). }
  constructor.
  - cbn [map fst]. constructor; [|exact I1]. intros X. apply in_map_iff in X. destruct X as [[a b] [E X]]. cbn in E. subst a.
    clear - X Gk. induction s as [|[a y] r IH]; [destruct X|]. cbn [get] in Gk. destruct (Z.eqb_spec a k); [discriminate|].
    destruct X as [X|X]; [congruence|]. auto.
  - intros j a E. rewrite N. destruct (G _ _ E) as [[-> ->]|[Nj Gb]].
    + rewrite Nk. unfold e. cbn [i_nlink i_dir i_ents]. destruct dir; [|reflexivity].
      destruct (Z.eqb_spec k INO_ROOT); [congruence|reflexivity].
    + rewrite (SD _ _ Gb). exact (I2 _ _ Gb).
  - intros j a m c E Hin. destruct (G _ _ E) as [[-> ->]|[Nj Gb]]; [destruct Hin|].
    destruct (I3 _ _ _ _ Gb Hin) as [ic Gc]. cbn [get]. destruct (k =? c); eauto.
  - intros j a E F. destruct (G _ _ E) as [[-> ->]|[Nj Gb]]; [reflexivity|]. eauto.
  - intros j a E F. rewrite N. destruct (G _ _ E) as [[-> ->]|[Nj Gb]]; [lia|]. eauto.
  - destruct I6 as [[r [Gr Fr]] Nr]. rewrite N. split; [|exact Nr]. exists r. split; [|exact Fr].
    cbn [get]. destruct (Z.eqb_spec k INO_ROOT); [congruence|exact Gr].
  - intros j a E. destruct (G _ _ E) as [[-> ->]|[Nj Gb]]; [constructor|]. eauto.
  - intros j a E Nr N0 Nx. rewrite N in N0. destruct (G _ _ E) as [[-> ->]|[Nj Gb]]; [reflexivity|]. eauto.
  - intros j a E. destruct (G _ _ E) as [[-> ->]|[Nj Gb]]; [cbn; lia|]. eauto.
Qed.

(* a directory in transit has arrived, or was empty *)
Lemma inv_settle : forall k x s, inv (k :: x) s -> (forall i, get s k = Some i -> 0 < names s k \/ i_ents i = []) -> inv x s.
Proof.
  intros k x s I H. destruct I as [I1 I2 I3 I4 I5 I6 I7 I8 I9]. constructor; auto.
  intros j i G Nr N0 Nx. destruct (Z.eq_dec j k) as [->|Nj].
  - destruct (H _ G); [lia|assumption].
  - apply (I8 j i G Nr N0). intros [X|X]; [congruence|contradiction].
Qed.

Lemma orphan_nameless : forall s k i, inv [] s -> get s k = Some i -> nlink_orphan i = true ->
  names s k = 0 /\ i_ents i = [] /\ k <> INO_ROOT.
Proof.
  intros s k i I G O. pose proof (inv_links _ _ I _ _ G) as L. unfold nlink_orphan in O.
  pose proof (names_nonneg s k). pose proof (subdirs_nonneg s (i_ents i)).
  destruct (i_dir i) eqn:D.
  - assert (k <> INO_ROOT). { intros ->. rewrite Z.eqb_refl in L. lia. }
    destruct (Z.eqb_spec k INO_ROOT); [congruence|].
    assert (names s k = 0) by lia. split; [assumption|]. split; [|assumption].
    destruct I. eapply inv_dead0; eauto.
  - split; [lia|]. split; [destruct I; eauto|]. intros ->. destruct (inv_root _ _ I) as [[r [Gr Fr]] _]. congruence.
Qed.
Lemma alive_of_nlink : forall s d di, inv [] s -> get s d = Some di -> i_dir di = true -> 2 <= i_nlink di ->
  d = INO_ROOT \/ 0 < names s d \/ In d [].
Proof.
  intros s d di I G D L. destruct (Z.eq_dec d INO_ROOT); [auto|]. right; left.
  pose proof (names_nonneg s d). destruct (Z.eq_dec (names s d) 0) as [E|E]; [|lia].
  pose proof (inv_dead _ _ I d di G n E (fun X => X)) as X. pose proof (inv_links _ _ I _ _ G) as Y.
  rewrite D, X in Y. destruct (Z.eqb_spec d INO_ROOT); [congruence|]. unfold subdirs in Y. cbn in Y. lia.
Qed.
