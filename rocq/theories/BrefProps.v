(* C58: boot-ref files. *)
From Verif Require Import Base AddrModel MntModel WalkModel RulesModel RulesSpec RulesProofs.
From Verif Require Import CaddrModel CaddrSpec CaddrProofs CaddrProps BrefModel BrefSpec BrefProofs.

Definition start (d : hdir) (evs : list event) : hst := mkHst d evs Went.

(* names that are accepted *)
Theorem fsname_iff : forall s, fsname_ok s = true <-> legal_name s.
Proof. exact fsname_legal. Qed.

Lemma done_says : forall n c d, sound_caddr c -> done n (caddr_to_name c) d -> says d n c /\ d (tmp_name n) = None.
Proof.
  intros n c d HC [H1 H2]. split; [|auto]. exists 256, (caddr_to_name c). split; [auto|]. split; [reflexivity|]. apply name_made; auto.
Qed.
Lemma kept_says : forall n c d0 d, kept n d0 d -> says d0 n c -> says d n c.
Proof.
  intros n c d0 d HK (m & t & E & HR & HN). unfold kept in HK. rewrite E in HK. destruct (d n) as [[m' b]|] eqn:ED; [|destruct HK].
  cbn [f_data f_mode] in HK. destruct HK as [-> HM]. exists m', t. split; [auto|]. split; [|auto]. destruct HM as [-> |[-> | ->]]; [auto|reflexivity|reflexivity].
Qed.
Lemma kept_contents : forall n d0 d, kept n d0 d -> contents d n = contents d0 n.
Proof. intros n d0 d HK. unfold kept, contents in *. destruct (d0 n), (d n); try destruct HK; congruence. Qed.

(* a save which succeeds leaves the file saying the address, and no other trace *)
Theorem save_complete : forall root n c d evs, sound_caddr c -> let s' := bootref_save root n c (start d evs) in
  h_fin s' = Went -> says (h_dir s') n c /\ h_dir s' (tmp_name n) = None /\ same_but n (tmp_name n) d (h_dir s').
Proof.
  intros root n c d evs HC s' HF. destruct (save_ends root n (caddr_to_name c) (start d evs) eq_refl) as [H _].
  destruct (H HF) as [H1 H2]. apply done_says in H2; [|auto]. tauto.
Qed.
(* ... and it does succeed when no call fails and no temporary file of an earlier one is there *)
Lemma then_ok : forall (p q : step) s d, p s = start d [] -> andthen p q s = q (start d []).
Proof. intros p q s d E. unfold andthen. cbv zeta. rewrite E. reflexivity. Qed.
Lemma must_ok : forall act d d', act d = Some d' -> must act (start d []) = start d' [].
Proof. intros act d d' E. unfold must, start. cbn [next h_evs h_dir]. rewrite E. reflexivity. Qed.
Lemma write_ok : forall n b d d', h_append n b d = Some d' -> h_writen n b (start d []) = start d' [].
Proof. intros n b d d' E. unfold h_writen, start. cbn [next h_evs h_dir]. cbv zeta. rewrite E. reflexivity. Qed.
Theorem save_works : forall root n c d, d (tmp_name n) = None -> h_fin (bootref_save root n c (start d [])) = Went.
Proof.
  intros root n c d HT. unfold bootref_save, save_bref_file.
  erewrite then_ok; [|apply must_ok; unfold h_create; rewrite HT; reflexivity].
  erewrite then_ok; [|apply must_ok; unfold h_chmod; rewrite upd_eq; reflexivity].
  erewrite then_ok; [|apply write_ok; unfold h_append; rewrite upd_eq; reflexivity].
  erewrite then_ok; [|apply write_ok; unfold h_append; rewrite upd_eq; reflexivity].
  erewrite then_ok; [|reflexivity]. cbn [set_dir h_dir start].
  match goal with |- context [start ?x []] => set (dd := x) end.
  assert (HD : exists f, dd (tmp_name n) = Some f) by (unfold dd; rewrite upd_eq; eauto). destruct HD as [f HD]. clearbody dd.
  assert (HE : exists d2, d2 (tmp_name n) = Some f /\ may (h_chmod n (OWNER_R + OWNER_W)) (start dd []) = start d2 []).
  { unfold may, h_chmod, start. cbn [next h_evs h_dir]. destruct (dd n) as [g|]; eexists; (split; [|reflexivity]); [rewrite upd_ne by apply tmp_ne|]; auto. }
  destruct HE as [d2 [HD2 HE]]. rewrite (then_ok _ _ _ _ HE).
  erewrite then_ok; [|unfold h_rename, start; cbn [next h_evs h_dir]; rewrite HD2; reflexivity].
  erewrite must_ok; [reflexivity|unfold h_chmod; rewrite upd_eq; reflexivity].
Qed.

(* however it ends - call failed, command killed at any point - the file is as it was or says the
   new address, and no other file but the temporary one has changed *)
Theorem save_atomic : forall root n c d evs, sound_caddr c -> let d' := h_dir (bootref_save root n c (start d evs)) in
  same_but n (tmp_name n) d d' /\
  ((contents d' n = contents d n /\ forall c0, says d n c0 -> says d' n c0) \/ says d' n c).
Proof.
  intros root n c d evs HC d'. destruct (save_ends root n (caddr_to_name c) (start d evs) eq_refl) as [H1 H2].
  fold (bootref_save root n c) in H1, H2. change (h_dir (start d evs)) with d in H1, H2. fold d' in H1, H2.
  assert (HL : left_so n (caddr_to_name c) d d').
  { destruct (h_fin (bootref_save root n c (start d evs))) eqn:E; [|apply H2; discriminate|apply H2; discriminate].
    destruct (H1 eq_refl) as [A B]. split; auto. }
  destruct HL as [HS [HK|HD]]; (split; [auto|]).
  - left. split; [apply kept_contents; auto|]. intros c0. apply kept_says; auto.
  - right. apply done_says in HD; tauto.
Qed.

(* files of other file systems, snapshots and archives are left alone *)
Theorem save_spares : forall root n c d evs m, sound_caddr c -> fsname_ok m = true -> m <> n ->
  h_dir (bootref_save root n c (start d evs)) m = d m.
Proof.
  intros root n c d evs m HC HM HN. destruct (save_atomic root n c d evs HC) as [HS _]. apply HS; [auto|].
  intros ->. apply fsname_legal in HM. apply (tmp_not_legal n HM).
Qed.

(* what was saved is what is loaded *)
Theorem save_load : forall root root' n c d evs, sound_caddr c -> whole_size c -> let s' := bootref_save root n c (start d evs) in
  h_fin s' = Went -> bootref_load root' (ca_type c) n (h_dir s') (h_dir s') = Some c.
Proof.
  intros root root' n c d evs HC HW s' HF. destruct (save_complete root n c d evs HC HF) as [H _]. apply load_says with (c1 := c); auto.
Qed.
(* a file of the other kind is refused *)
Theorem load_kind : forall root ctype n d1 d2 c, bootref_load root ctype n d1 d2 = Some c -> ca_type c = ctype.
Proof.
  intros root ctype n d1 d2 c. unfold bootref_load. destruct (load_bref_file root n d1 d2); [|discriminate]. destruct (caddr_by_name b) as [c'|]; [|discriminate].
  destruct (ca_type c' =? ctype) eqn:E; [|discriminate]. intros H. injection H as <-. lia.
Qed.
(* a load while a save is under way (d1 when it looks, d2 when it opens), or after one was cut
   short, gives the old address or the new one *)
Theorem load_during_save : forall root root' n c0 c d evs1 evs2,
  sound_caddr c0 -> sound_caddr c -> whole_size c0 -> whole_size c -> ca_type c0 = 1 -> ca_type c = 1 -> says d n c0 ->
  let d1 := h_dir (bootref_save root n c (start d evs1)) in
  let d2 := h_dir (bootref_save root n c (start d evs2)) in
  bootref_load root' 1 n d1 d2 = Some c0 \/ bootref_load root' 1 n d1 d2 = Some c.
Proof.
  intros root root' n c0 c d evs1 evs2 H0 H HW0 HW T0 T HS d1 d2.
  assert (Z0 : ca_size c0 = 1024) by (destruct HW0 as [[_ E]|[E _]]; lia). assert (Z1 : ca_size c = 1024) by (destruct HW as [[_ E]|[E _]]; lia).
  assert (HX : forall evs, says (h_dir (bootref_save root n c (start d evs))) n c0 \/ says (h_dir (bootref_save root n c (start d evs))) n c).
  { intros evs. destruct (save_atomic root n c d evs H) as [_ [[_ HK]|HD]]; auto. }
  assert (HY : exists e, (e = c0 \/ e = c) /\ says d1 n e) by (destruct (HX evs1); eauto). destruct HY as (e & HE & HE1).
  destruct (HX evs2) as [HF|HF]; fold d2 in HF; [left; rewrite <- T0|right; rewrite <- T]; (apply load_says with (c1 := e); auto; destruct HE as [-> | ->]; auto; congruence).
Qed.

(* ---- snapshots ---- *)
Definition sn_hoare (P : hdir -> caddr -> Prop) (p : snstep) (Q R : hdir -> caddr -> Prop) : Prop :=
  forall s, h_fin (n_host s) = Went -> P (h_dir (n_host s)) (n_live s) ->
    (h_fin (n_host (p s)) = Went -> Q (h_dir (n_host (p s))) (n_live (p s))) /\
    (h_fin (n_host (p s)) <> Went -> R (h_dir (n_host (p s))) (n_live (p s))).
Lemma sn_seq : forall P p Q q Q' R, sn_hoare P p Q R -> sn_hoare Q q Q' R -> sn_hoare P (sn_then p q) Q' R.
Proof.
  intros P p Q q Q' R H1 H2 s HF HP. unfold sn_then. cbv zeta. destruct (H1 s HF HP) as [HQ HR]. destruct (h_fin (n_host (p s))) eqn:E.
  - apply H2; auto.
  - rewrite E. split; [discriminate|]. intros _. apply HR. discriminate.
  - rewrite E. split; [discriminate|]. intros _. apply HR. discriminate.
Qed.
Lemma sn_files : forall (P Q R : hdir -> caddr -> Prop) p, (forall l, hoare (fun d => P d l) p (fun d => Q d l) (fun d => R d l)) -> sn_hoare P (on_files p) Q R.
Proof. intros P Q R p H s HF HP. cbn [on_files n_host n_live]. apply (H (n_live s)); auto. Qed.
Lemma hoare_nothing : forall P R : hdir -> Prop, (forall d, P d -> R d) -> hoare P nothing P R.
Proof. intros P R H. apply hoare_must; [auto|]. intros d d' HP E. injection E as <-. auto. Qed.
Lemma read_answer_id : forall c, sound_caddr c -> whole_size c -> read_answer c = c.
Proof.
  intros c HC HW. unfold read_answer. pose proof (caddr_read_back c [] [] HC HW) as H. cbn [app] in H. rewrite app_nil_r in H.
  rewrite H; [auto|constructor|constructor|cbn; lia].
Qed.

Section SNAP.
  Variables (root : bool) (name snap : bytes) (old new alt : caddr) (d0 : hdir).
  Hypotheses (HO : sound_caddr old) (HN : sound_caddr new) (HA : sound_caddr alt) (HNW : whole_size new) (HAW : whole_size alt).
  Hypotheses (HS0 : says d0 name old).

  Definition others (d : hdir) : Prop :=
    forall x, fsname_ok x = true -> x <> name -> x <> snap -> d x = d0 x.
  Definition before (d : hdir) (live : caddr) : Prop := live = old /\ forall x, d x = d0 x.
  Definition between (d : hdir) (live : caddr) : Prop :=
    live = new /\ others d /\ says d name old /\ (d snap = None \/ says d snap alt).
  Definition after (d : hdir) (live : caddr) : Prop :=
    live = new /\ others d /\ says d name new /\ says d snap alt.
  Let R (d : hdir) (live : caddr) : Prop := before d live \/ between d live \/ after d live.

  Lemma snap_hoare : sn_hoare before (snap_command root name snap new alt)
    (fun d l => fsname_ok name = true /\ fsname_ok snap = true /\ name <> snap /\ after d l) R.
  Proof.
    unfold snap_command. rewrite !read_answer_id by auto.
    set (ok := fsname_ok name = true /\ fsname_ok snap = true /\ name <> snap /\ d0 snap = None).
    apply sn_seq with (Q := fun d l => ok /\ before d l).
    { apply sn_files. intros l s HF HB. unfold snap_prepare. destruct (fsname_ok name && fsname_ok snap) eqn:E.
      - apply andb_true_iff in E. destruct E as [E1 E2]. destruct (h_dir s snap) as [f|] eqn:ES.
        + cbn [ended h_fin h_dir]. split; [discriminate|]. intros _. left. auto.
        + assert (HOK : ok).
          { destruct HB as [_ HB]. rewrite HB in ES. split; [auto|]. split; [auto|]. split; [|auto]. intros <-. destruct HS0 as (m & t & E & _). congruence. }
          destruct (hoare_nothing (fun d => before d l) (fun d => R d l) (fun d H => or_introl H) s HF HB) as [A B]. split; [intros H; split; auto|auto].
      - cbn [ended h_fin h_dir]. split; [discriminate|]. intros _. left. auto. }
    apply sn_seq with (Q := fun d l => ok /\ before d l).
    { apply sn_files. intros l s HF HB. unfold snap_load. destruct (bootref_load root CT_BOOTREC name (h_dir s) (h_dir s)) as [c|].
      - apply (hoare_nothing (fun d => ok /\ before d l) (fun d => R d l)); auto. intros d [_ H]. left. auto.
      - cbn [ended h_fin h_dir]. split; [discriminate|]. intros _. left. tauto. }
    apply sn_seq with (Q := fun d l => ok /\ l = new /\ forall x, d x = d0 x).
    { intros s HF [HOK HB]. unfold snap_fork. cbv zeta.
      destruct (hoare_nothing (fun d => forall x, d x = d0 x) (fun d => forall x, d x = d0 x) (fun d H => H) (n_host s) HF (proj2 HB)) as [A B].
      destruct (h_fin (nothing (n_host s))) eqn:E; cbn [n_host n_live]; rewrite E; (split; [try discriminate|try congruence]).
      - intros _. split; [auto|]. split; [auto|]. apply A; auto.
      - intros _. left. split; [apply HB|]. apply B. discriminate.
      - intros _. left. split; [apply HB|]. apply B. discriminate. }
    assert (HBW : forall d l, ok /\ l = new /\ (forall x, d x = d0 x) -> R d l).
    { intros d l (HOK & -> & HD). right. left. split; [auto|]. split; [intros x _ _ _; auto|]. split; [destruct HS0 as (m & t & E & H); exists m, t; rewrite HD; auto|].
      left. rewrite HD. apply HOK. }
    apply sn_seq with (Q := fun d l => ok /\ l = new /\ forall x, d x = d0 x).
    { apply sn_files. intros l. apply hoare_nothing. intros d. apply HBW. }
    apply sn_seq with (Q := fun d l => ok /\ l = new /\ others d /\ says d name old /\ says d snap alt).
    { apply sn_files. intros l s HF (HOK & HL & HD).
      destruct (save_ends root snap (caddr_to_name alt) s HF) as [A B]. fold (bootref_save root snap alt) in A, B. destruct HOK as (N1 & N2 & N3 & N4).
      assert (HT : tmp_name snap <> name) by (intros E; apply fsname_legal in N1; rewrite <- E in N1; apply (tmp_not_legal _ N1)).
      assert (HX : forall d, same_but snap (tmp_name snap) (h_dir s) d -> others d /\ says d name old).
      { intros d HSB. split.
        - intros x X1 X2 X3. rewrite HSB; [auto|auto|]. intros ->. apply fsname_legal in X1. apply (tmp_not_legal _ X1).
        - destruct HS0 as (m & t & E & H). exists m, t. rewrite HSB by congruence. rewrite HD. auto. }
      split.
      - intros HW. destruct (A HW) as [A1 A2]. destruct (HX _ A1). split; [split; auto|]. split; [auto|]. split; [auto|]. split; [auto|]. apply done_says in A2; tauto.
      - intros HW. destruct (B HW) as [B1 B2]. destruct (HX _ B1). right. left. split; [auto|]. split; [auto|]. split; [auto|]. destruct B2 as [B2|B2]; [|right; apply done_says in B2; tauto].
        left. unfold kept in B2. rewrite HD, N4 in B2. destruct (h_dir (bootref_save root snap alt s) snap); [destruct B2|auto]. }
    { apply sn_files. intros l s HF (HOK & HL & HOT & HSN & HSA).
      destruct (save_ends root name (caddr_to_name new) s HF) as [A B]. fold (bootref_save root name new) in A, B. destruct HOK as (N1 & N2 & N3 & N4).
      assert (HT : tmp_name name <> snap) by (intros E; apply fsname_legal in N2; rewrite <- E in N2; apply (tmp_not_legal _ N2)).
      assert (HX : forall d, same_but name (tmp_name name) (h_dir s) d -> others d /\ says d snap alt).
      { intros d HSB. split.
        - intros x X1 X2 X3. rewrite HSB; [apply HOT; auto|auto|]. intros ->. apply fsname_legal in X1. apply (tmp_not_legal _ X1).
        - destruct HSA as (m & t & E & H). exists m, t. rewrite HSB by congruence. auto. }
      split.
      - intros HW. destruct (A HW) as [A1 A2]. destruct (HX _ A1). split; [auto|]. split; [auto|]. split; [auto|]. split; [auto|]. split; [auto|]. split; [|auto]. apply done_says in A2; tauto.
      - intros HW. destruct (B HW) as [B1 B2]. destruct (HX _ B1). right. destruct B2 as [B2|B2].
        + left. split; [auto|]. split; [auto|]. split; [|auto]. eapply kept_says; eauto.
        + right. split; [auto|]. split; [auto|]. split; [|auto]. apply done_says in B2; tauto. }
  Qed.
End SNAP.

(* a snapshot that succeeds: the name of the file system leads to the record it is at, the name
   of the snapshot to that of the snapshot, and other names to where they led *)
Theorem snap_done : forall root name snap old new alt d evs,
  sound_caddr old -> sound_caddr new -> sound_caddr alt -> whole_size new -> whole_size alt -> says d name old ->
  let s' := snap_command root name snap new alt (mkSnst (start d evs) old) in
  h_fin (n_host s') = Went ->
  n_live s' = new /\ legal_name name /\ legal_name snap /\
  bootref_load root (ca_type new) name (h_dir (n_host s')) (h_dir (n_host s')) = Some new /\
  bootref_load root (ca_type alt) snap (h_dir (n_host s')) (h_dir (n_host s')) = Some alt /\
  forall x, fsname_ok x = true -> x <> name -> x <> snap -> h_dir (n_host s') x = d x.
Proof.
  intros root name snap old new alt d evs HO HN HA HNW HAW HS s' HF.
  destruct (snap_hoare root name snap old new alt d HN HA HNW HAW HS (mkSnst (start d evs) old) eq_refl) as [H _]; [split; [reflexivity|auto]|].
  destruct (H HF) as (N1 & N2 & N3 & HL & HOT & H1 & H2). fold s' in HL, HOT, H1, H2. split; [auto|]. split; [apply fsname_legal; auto|]. split; [apply fsname_legal; auto|].
  split; [apply load_says with (c1 := new); auto|]. split; [apply load_says with (c1 := alt); auto|]. exact HOT.
Qed.
(* however it ends: either nothing has happened; or the file system is at its new record, and its name
   leads to the old one or, the snapshot having its name, to the new one; other names are untouched *)
Theorem snap_ends : forall root name snap old new alt d evs,
  sound_caddr old -> sound_caddr new -> sound_caddr alt -> whole_size new -> whole_size alt -> says d name old ->
  let s' := snap_command root name snap new alt (mkSnst (start d evs) old) in
  let d' := h_dir (n_host s') in
  (n_live s' = old /\ forall x, d' x = d x) \/
  n_live s' = new /\ (forall x, fsname_ok x = true -> x <> name -> x <> snap -> d' x = d x) /\
    (says d' name old /\ (d' snap = None \/ says d' snap alt) \/ says d' name new /\ says d' snap alt).
Proof.
  intros root name snap old new alt d evs HO HN HA HNW HAW HS s' d'.
  destruct (snap_hoare root name snap old new alt d HN HA HNW HAW HS (mkSnst (start d evs) old) eq_refl) as [H1 H2]; [split; [reflexivity|auto]|].
  fold s' in H1, H2. fold d' in H1, H2.
  assert (HR : before old d d' (n_live s') \/ between name snap old new alt d d' (n_live s') \/ after name snap new alt d d' (n_live s')).
  { destruct (h_fin (n_host s')) eqn:E; [right; right; apply H1; auto|apply H2; discriminate|apply H2; discriminate]. }
  destruct HR as [HR|[(A & B & C & D)|(A & B & C & D)]]; [left; exact HR|right; split; [auto|]; split; [auto|]; auto..].
Qed.

(* ---- examples ---- *)
Definition n_fs : bytes := [102; 115; 49].           (* fs1 *)
Definition n_snap : bytes := [115; 110; 97; 112].    (* snap *)
Definition toy_new : caddr := mkCaddr (rev toy_hash) 1024 1.
Definition toy_alt : caddr := mkCaddr (tl toy_hash ++ [9]) 1024 1.
Definition toy_dir : hdir := fun n => if same_name n_fs n then Some (mkHfile 256 (toy_text ++ [10])) else None.
Lemma toy_new_ok : sound_caddr toy_new /\ whole_size toy_new.
Proof.
  split; [|left; split; reflexivity]. split; [reflexivity|]. split; [apply Forall_forall; intros x HX; apply in_rev in HX; revert x HX; apply Forall_forall; apply toy_bytes|]. cbn. lia.
Qed.
Lemma toy_alt_ok : sound_caddr toy_alt /\ whole_size toy_alt.
Proof.
  split; [|left; split; reflexivity]. split; [reflexivity|]. split; [|cbn; lia].
  pose proof toy_bytes as H. apply Forall_app. split; [|constructor; [unfold is_byte; lia|constructor]]. destruct toy_hash; [constructor|inversion H; auto].
Qed.
Lemma toy_says : says toy_dir n_fs toy_boot.
Proof.
  exists 256, toy_text. split; [vm_compute; reflexivity|]. split; [reflexivity|]. replace toy_text with (caddr_to_name toy_boot) by (vm_compute; reflexivity).
  apply name_made. apply toy_sound.
Qed.
Example save_complete_ex : let s' := bootref_save false n_fs toy_new (start toy_dir []) in
  h_fin s' = Went /\ bootref_load false 1 n_fs (h_dir s') (h_dir s') = Some toy_new /\ h_dir s' (tmp_name n_fs) = None.
Proof. vm_compute. repeat split; reflexivity. Qed.
(* killed in the middle of the write: the old one stays *)
Example save_atomic_ex : let s' := bootref_save false n_fs toy_new (start toy_dir [EvOk; EvOk; EvKill 30]) in
  h_fin s' = Killed /\ bootref_load false 1 n_fs (h_dir s') (h_dir s') = Some toy_boot /\
  contents (h_dir s') (tmp_name n_fs) = Some (firstn 30 (caddr_to_name toy_new)).
Proof. vm_compute. repeat split; reflexivity. Qed.
Example load_during_save_ex :
  let d1 := h_dir (bootref_save false n_fs toy_new (start toy_dir [EvOk; EvOk; EvOk; EvOk; EvOk; EvOk; EvKill 0])) in
  let d2 := h_dir (bootref_save false n_fs toy_new (start toy_dir [EvOk; EvOk; EvOk; EvOk; EvOk; EvOk; EvOk; EvKill 0])) in
  bootref_load false 1 n_fs d1 d2 = Some toy_new /\ bootref_load false 1 n_fs d1 d1 = Some toy_boot.
Proof. vm_compute. repeat split; reflexivity. Qed.
Example snap_done_ex : let s' := snap_command false n_fs n_snap toy_new toy_alt (mkSnst (start toy_dir []) toy_boot) in
  h_fin (n_host s') = Went /\ n_live s' = toy_new /\
  bootref_load false 1 n_fs (h_dir (n_host s')) (h_dir (n_host s')) = Some toy_new /\
  bootref_load false 1 n_snap (h_dir (n_host s')) (h_dir (n_host s')) = Some toy_alt.
Proof. vm_compute. repeat split; reflexivity. Qed.
Example fsname_iff_ex : fsname_ok n_fs = true /\ fsname_ok (tmp_name n_fs) = false /\ fsname_ok [46; 115] = false /\
  fsname_ok [97; 47; 98] = false /\ fsname_ok [] = false /\ fsname_ok (repeat 97 127) = true /\ fsname_ok (repeat 97 128) = false.
Proof. vm_compute. repeat split; reflexivity. Qed.

(* ---- beyond ---- *)
(* the temporary file of a save that was cut short is read-only, and a user who is not root can
   not write it again: no save of that name goes through any more, until it is removed by hand *)
Lemma then_dead : forall (p q : step) s, h_fin (p s) <> Went -> andthen p q s = p s.
Proof. intros p q s H. unfold andthen. cbv zeta. destruct (h_fin (p s)); congruence. Qed.
Theorem save_blocked : forall n c d evs f, d (tmp_name n) = Some f -> Z.testbit (f_mode f) 7 = false ->
  let s' := bootref_save false n c (start d evs) in h_fin s' <> Went /\ h_dir s' = d.
Proof.
  intros n c d evs f HD HM.
  assert (HC : h_create false (tmp_name n) d = None).
  { unfold h_create. rewrite HD. unfold permits. cbn [orb]. destruct (Z.land (f_mode f) (OWNER_R + OWNER_W) =? OWNER_R + OWNER_W) eqn:EL; [|auto].
    apply Z.eqb_eq in EL. apply (f_equal (fun z => Z.testbit z 7)) in EL. rewrite Z.land_spec, HM in EL. discriminate. }
  assert (HP : let s1 := must (h_create false (tmp_name n)) (start d evs) in h_fin s1 <> Went /\ h_dir s1 = d).
  { cbv zeta. unfold must. destruct (next (start d evs)) as [e s1] eqn:E. destruct (next_fin _ _ _ E) as [ED EF]. cbn [start h_dir h_fin] in ED, EF.
    destruct e as [|k|k]; [rewrite ED, HC|..]; cbn [ended h_fin h_dir]; (split; [discriminate|exact ED]). }
  unfold bootref_save, save_bref_file. rewrite then_dead by apply HP. exact HP.
Qed.
Theorem save_again_refuted : exists d n c0 c evs, legal_name n /\ says d n c0 /\ sound_caddr c /\ d (tmp_name n) = None /\
  let s' := bootref_save false n c (start d evs) in h_fin s' = Died /\
  forall c' evs', let s'' := bootref_save false n c' (start (h_dir s') evs') in h_fin s'' <> Went /\ h_dir s'' = h_dir s'.
Proof.
  exists toy_dir, n_fs, toy_boot, toy_new, [EvOk; EvOk; EvErr 0]. split; [apply fsname_legal; reflexivity|]. split; [apply toy_says|]. split; [apply toy_new_ok|].
  split; [reflexivity|]. cbv zeta. split; [vm_compute; reflexivity|]. intros c' evs'. eapply save_blocked; vm_compute; reflexivity.
Qed.
(* a snapshot that fails after the fork leaves the name of the file system at the old record,
   while the file system goes on at the new one: what is written from then on is not there at the
   next mount.  The name of the snapshot is written first: a failure to write it is enough *)
Theorem snap_behind_refuted : exists name snap old new alt d evs, legal_name name /\ legal_name snap /\
  sound_caddr new /\ sound_caddr alt /\ whole_size new /\ whole_size alt /\ says d name old /\ old <> new /\
  let s' := snap_command false name snap new alt (mkSnst (start d evs) old) in
  h_fin (n_host s') = Died /\ n_live s' = new /\
  bootref_load false 1 name (h_dir (n_host s')) (h_dir (n_host s')) = Some old /\
  h_dir (n_host s') snap = None.
Proof.
  exists n_fs, n_snap, toy_boot, toy_new, toy_alt, toy_dir, [EvOk; EvOk; EvOk; EvOk; EvErr 0].
  split; [apply fsname_legal; reflexivity|]. split; [apply fsname_legal; reflexivity|]. split; [apply toy_new_ok|]. split; [apply toy_alt_ok|].
  split; [apply toy_new_ok|]. split; [apply toy_alt_ok|]. split; [apply toy_says|]. split; [discriminate|]. vm_compute. repeat split; reflexivity.
Qed.
(* nothing is forced to the disk: after a loss of power a save that had succeeded may have
   replaced the old file by an empty one *)
Theorem save_power_refuted : exists n c0 c d d', legal_name n /\ says d n c0 /\ sound_caddr c /\ whole_size c /\
  let s' := bootref_save false n c (start d []) in h_fin s' = Went /\ power_loss d (h_dir s') d' /\
  forall root ctype, bootref_load root ctype n d' d' = None.
Proof.
  exists n_fs, toy_boot, toy_new, toy_dir, (fun x => if same_name n_fs x then Some (mkHfile 256 []) else None).
  split; [apply fsname_legal; reflexivity|]. split; [apply toy_says|]. split; [apply toy_new_ok|]. split; [apply toy_new_ok|]. cbv zeta. split; [vm_compute; reflexivity|]. split.
  - intros m. destruct (same_name n_fs m) eqn:E.
    + apply same_name_iff in E. subst m. right. pose proof (save_complete false n_fs toy_new toy_dir [] (proj1 toy_new_ok)) as H. cbv zeta in H. destruct H as [(mo & t & H & _) _]; [vm_compute; reflexivity|].
      assert (HM : h_dir (bootref_save false n_fs toy_new (start toy_dir [])) n_fs = Some (mkHfile 256 (caddr_to_name toy_new ++ [10]))) by (vm_compute; reflexivity).
      rewrite HM. exists 0%nat. reflexivity.
    + left. unfold toy_dir. rewrite E. reflexivity.
  - intros root ctype. destruct root; vm_compute; reflexivity.
Qed.

Print Assumptions fsname_iff.
Print Assumptions save_complete.
Print Assumptions save_works.
Print Assumptions save_atomic.
Print Assumptions save_spares.
Print Assumptions save_load.
Print Assumptions load_kind.
Print Assumptions load_during_save.
Print Assumptions snap_done.
Print Assumptions snap_ends.
Print Assumptions save_blocked.
Print Assumptions save_again_refuted.
Print Assumptions snap_behind_refuted.
Print Assumptions save_power_refuted.
