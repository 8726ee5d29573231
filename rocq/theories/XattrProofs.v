From Verif Require Import Base XattrModel.

Definition entry := (bytes * bytes)%type.   (* name, value *)
Definition eunits (e : entry) : Z := xe_calc_nents (zlen (fst e)) (zlen (snd e)).
Definition units (es : list entry) : Z := zsum (map eunits es).
Definition padded (d : bytes) : bytes := d ++ zrepeat 0 (xe_aligned (zlen d) - zlen d).
Definition enc_head (e : entry) : bytes := le_enc 2 (zlen (fst e)) ++ [0; 0] ++ le_enc 4 (zlen (snd e)).
Definition enc_entry (e : entry) : bytes := enc_head e ++ padded (fst e) ++ padded (snd e).
Definition enc (es : list entry) : bytes := concat (map enc_entry es).

Definition wf_entry (e : entry) : Prop := zlen (fst e) <= 255 /\ zlen (snd e) <= 2048.

Definition node_rep (n : xnode) (es : list entry) : Prop :=
  Forall wf_entry es /\ units es <= XA_NENTS /\ xn_nents n = units es /\
  xn_buf n = enc es ++ zrepeat 0 (XUNIT * (XA_NENTS - units es)).

Lemma aligned_ge : forall n, 0 <= n -> n <= xe_aligned n /\ xe_aligned n mod 8 = 0 /\ xe_aligned n < n + 8.
Proof. intros n H. unfold xe_aligned, XUNIT. lia. Qed.

Lemma zlen_padded : forall d, zlen (padded d) = xe_aligned (zlen d).
Proof.
  intros d. unfold padded. pose proof (zlen_nonneg _ d). pose proof (aligned_ge (zlen d) ltac:(lia)).
  rewrite zlen_app, zlen_zrepeat by lia. lia.
Qed.
Lemma zlen_enc_head : forall e, zlen (enc_head e) = 8.
Proof. intros. unfold enc_head. rewrite !zlen_app, !zlen_le_enc. reflexivity. Qed.
Lemma calc_nents_8 : forall a b, 0 <= a -> 0 <= b ->
  XUNIT * xe_calc_nents a b = 8 + xe_aligned a + xe_aligned b /\ 1 <= xe_calc_nents a b.
Proof. intros. unfold xe_calc_nents, xe_aligned, XUNIT. lia. Qed.
Lemma zlen_enc_entry : forall e, zlen (enc_entry e) = XUNIT * eunits e.
Proof.
  intros e. unfold enc_entry, eunits. rewrite !zlen_app, zlen_enc_head, !zlen_padded.
  pose proof (zlen_nonneg _ (fst e)). pose proof (zlen_nonneg _ (snd e)).
  destruct (calc_nents_8 (zlen (fst e)) (zlen (snd e))); lia.
Qed.
Lemma eunits_pos : forall e, 1 <= eunits e.
Proof. intros e. apply calc_nents_8; apply zlen_nonneg. Qed.
Lemma units_app : forall a b, units (a ++ b) = units a + units b.
Proof. intros. unfold units. rewrite map_app. apply zsum_app. Qed.
Lemma units_cons : forall e b, units (e :: b) = eunits e + units b.
Proof. reflexivity. Qed.
Lemma units_nonneg : forall a, 0 <= units a.
Proof. induction a as [|e a IH]; [cbv; congruence|]. rewrite units_cons. pose proof (eunits_pos e). lia. Qed.
Lemma units_len : forall a, zlen a <= units a.
Proof. induction a as [|e a IH]; [cbv; congruence|]. rewrite units_cons, zlen_cons. pose proof (eunits_pos e). lia. Qed.
Lemma enc_app : forall a b, enc (a ++ b) = enc a ++ enc b.
Proof. intros. unfold enc. rewrite map_app. apply concat_app. Qed.
Lemma enc_cons : forall e b, enc (e :: b) = enc_entry e ++ enc b.
Proof. reflexivity. Qed.
Lemma zlen_enc : forall es, zlen (enc es) = XUNIT * units es.
Proof.
  induction es as [|e es IH]; [reflexivity|].
  rewrite enc_cons, units_cons, zlen_app, zlen_enc_entry, IH. lia.
Qed.

(* reading an entry at its place *)
Lemma read_entry : forall pre e rest, wf_entry e ->
  let b := enc pre ++ enc_entry e ++ rest in let i := units pre in
  xe_name_len b i = zlen (fst e) /\ xe_value_size b i = zlen (snd e) /\
  xe_name b i = fst e /\ xe_value b i = snd e /\ xe_nents b i = eunits e.
Proof.
  intros pre e rest [W1 W2] b i. unfold b, i.
  pose proof (zlen_enc pre) as LP. pose proof (zlen_nonneg _ (fst e)) as N1.
  pose proof (zlen_nonneg _ (snd e)) as N2.
  pose proof (aligned_ge (zlen (fst e)) N1) as A1.
  assert (E1 : xe_name_len (enc pre ++ enc_entry e ++ rest) (units pre) = zlen (fst e)).
  { unfold xe_name_len. unfold enc_entry, enc_head. rewrite <- !app_assoc.
    rewrite zsub_mid by (rewrite ?zlen_le_enc; lia).
    apply le_dec_enc. change (256 ^ Z.of_nat 2) with 65536. lia. }
  assert (E2 : xe_value_size (enc pre ++ enc_entry e ++ rest) (units pre) = zlen (snd e)).
  { unfold xe_value_size. unfold enc_entry, enc_head. rewrite <- !app_assoc.
    rewrite (app_assoc (le_enc 2 _)). rewrite (app_assoc (enc pre)).
    rewrite zsub_mid.
    - apply le_dec_enc. change (256 ^ Z.of_nat 4) with 4294967296. lia.
    - rewrite !zlen_app, zlen_le_enc, LP. change (zlen [0; 0]) with 2. lia.
    - rewrite zlen_le_enc. reflexivity. }
  split; [exact E1|]. split; [exact E2|]. split; [|split].
  - unfold xe_name. rewrite E1. unfold enc_entry, padded. rewrite <- !app_assoc.
    rewrite (app_assoc (enc pre)). apply zsub_mid; [|reflexivity].
    rewrite zlen_app, zlen_enc_head, LP. unfold XUNIT. lia.
  - unfold xe_value. rewrite E1, E2. unfold enc_entry. rewrite <- !app_assoc.
    unfold padded at 2. rewrite <- !app_assoc.
    rewrite (app_assoc (enc_head e)). rewrite (app_assoc (enc pre)). apply zsub_mid; [|reflexivity].
    rewrite !zlen_app, zlen_enc_head, LP, zlen_padded. unfold XUNIT. lia.
  - unfold xe_nents. rewrite E1, E2. reflexivity.
Qed.

Lemma has_name_spec : forall pre e rest name, wf_entry e ->
  xe_has_name (enc pre ++ enc_entry e ++ rest) (units pre) name = bytes_eqb (fst e) name.
Proof.
  intros pre e rest name W. unfold xe_has_name.
  destruct (read_entry pre e rest W) as (E1 & _ & E3 & _). cbv zeta in *. rewrite E1, E3.
  destruct (bytes_eqb (fst e) name) eqn:B; [|apply andb_false_r].
  apply bytes_eqb_eq in B. subst. rewrite Z.eqb_refl. reflexivity.
Qed.

(* the search walks the entries in order *)
Fixpoint find_pos (es : list entry) (name : bytes) : option (list entry * entry * list entry) :=
  match es with
  | [] => None
  | e :: r => if bytes_eqb (fst e) name then Some ([], e, r)
              else option_map (fun '(p, x, q) => (e :: p, x, q)) (find_pos r name)
  end.

Lemma find_pos_some : forall es name p x q, find_pos es name = Some (p, x, q) ->
  es = p ++ x :: q /\ fst x = name /\ ~ In name (map fst p).
Proof.
  induction es as [|e es IH]; intros name p x q H; cbn [find_pos] in H; [discriminate|].
  destruct (bytes_eqb (fst e) name) eqn:B.
  - inversion H; subst. apply bytes_eqb_eq in B. auto.
  - destruct (find_pos es name) as [[[p' x'] q']|] eqn:F; [|discriminate].
    cbn [option_map] in H. inversion H; subst. destruct (IH _ _ _ _ F) as (A & C & D).
    subst es. split; [reflexivity|]. split; [auto|]. cbn [map In]. intros [G|G]; [|auto].
    rewrite G, bytes_eqb_refl in B. discriminate.
Qed.
Lemma find_pos_none : forall es name, find_pos es name = None <-> ~ In name (map fst es).
Proof.
  induction es as [|e es IH]; intros name; cbn [find_pos map In]; [tauto|].
  destruct (bytes_eqb (fst e) name) eqn:B.
  - apply bytes_eqb_eq in B. split; [discriminate|]. tauto.
  - assert (NB : fst e <> name) by (intros G; rewrite G, bytes_eqb_refl in B; discriminate).
    specialize (IH name). destruct (find_pos es name) as [[[p x] q]|] eqn:F; cbn [option_map].
    + split; [discriminate|]. intros G. apply find_pos_some in F. destruct F as (-> & F & _).
      exfalso. apply G. right. rewrite map_app. apply in_or_app. right. left. exact F.
    + assert (~ In name (map fst es)) by (apply IH; auto). split; auto. intros _ [G|G]; auto.
Qed.

Lemma search_spec : forall es fuel pre rest name fin,
  Forall wf_entry es -> (length es < fuel)%nat -> fin = units pre + units es ->
  xe_search fuel (enc pre ++ enc es ++ rest) (units pre) fin name =
  option_map (fun '(p, _, _) => units pre + units p) (find_pos es name).
Proof.
  induction es as [|e es IH]; intros fuel pre rest name fin W Hf Hfin.
  - destruct fuel as [|k]; [reflexivity|]. cbn [xe_search find_pos option_map].
    change (units []) with 0 in Hfin. replace (units pre <? fin) with false by lia. reflexivity.
  - destruct fuel as [|k]; [cbn [length] in Hf; lia|]. cbn [xe_search find_pos].
    inversion W as [|? ? We Wes]; subst.
    rewrite units_cons. pose proof (eunits_pos e). pose proof (units_nonneg es).
    replace (units pre <? units pre + (eunits e + units es)) with true by lia.
    rewrite enc_cons, <- app_assoc. rewrite has_name_spec by auto.
    destruct (bytes_eqb (fst e) name) eqn:B.
    + cbn [option_map]. f_equal. change (units []) with 0. lia.
    + destruct (read_entry pre e (enc es ++ rest) We) as (_ & _ & _ & _ & E5). cbv zeta in E5. rewrite E5.
      specialize (IH k (pre ++ [e]) rest name (units pre + (eunits e + units es)) Wes
                     ltac:(cbn [length] in Hf; lia)).
      rewrite enc_app, units_app in IH. change (enc [e]) with (enc_entry e ++ []) in IH.
      rewrite app_nil_r in IH. change (units [e]) with (eunits e + 0) in IH. rewrite Z.add_0_r in IH.
      rewrite <- app_assoc in IH. rewrite IH by lia.
      destruct (find_pos es name) as [[[p x] q]|]; cbn [option_map]; [|reflexivity].
      f_equal. rewrite units_cons. lia.
Qed.

Lemma length_fuel : forall es, units es <= XA_NENTS -> (length es <= Z.to_nat XA_NENTS)%nat.
Proof. intros es H. pose proof (units_len es). unfold zlen in *. lia. Qed.

(* fuel = XA_NENTS suffices also when the node is exactly full of one-unit entries *)
Lemma search_spec_full : forall es rest name,
  Forall wf_entry es -> units es <= XA_NENTS ->
  xe_search (Z.to_nat XA_NENTS) (enc es ++ rest) 0 (units es) name =
  option_map (fun '(p, _, _) => units p) (find_pos es name).
Proof.
  assert (G : forall es fuel pre rest name fin,
    Forall wf_entry es -> (length es <= fuel)%nat -> fin = units pre + units es ->
    xe_search fuel (enc pre ++ enc es ++ rest) (units pre) fin name =
    xe_search (S fuel) (enc pre ++ enc es ++ rest) (units pre) fin name).
  { induction es as [|e es IH]; intros fuel pre rest name fin W Hf Hfin.
    - change (units []) with 0 in Hfin. destruct fuel; cbn [xe_search];
        replace (units pre <? fin) with false by lia; reflexivity.
    - destruct fuel as [|k]; [cbn [length] in Hf; lia|].
      change (xe_search (S (S k)) (enc pre ++ enc (e :: es) ++ rest) (units pre) fin name) with
        (if units pre <? fin then if xe_has_name (enc pre ++ enc (e :: es) ++ rest) (units pre) name
           then Some (units pre)
           else xe_search (S k) (enc pre ++ enc (e :: es) ++ rest)
                (units pre + xe_nents (enc pre ++ enc (e :: es) ++ rest) (units pre)) fin name else None).
      cbn [xe_search]. destruct (units pre <? fin); [|reflexivity].
      destruct (xe_has_name _ _ _); [reflexivity|].
      inversion W as [|? ? We Wes]; subst.
      rewrite enc_cons, <- app_assoc.
      destruct (read_entry pre e (enc es ++ rest) We) as (_ & _ & _ & _ & E5). cbv zeta in E5. rewrite E5.
      specialize (IH k (pre ++ [e]) rest name (units pre + units (e :: es)) Wes
                     ltac:(cbn [length] in Hf; lia)).
      rewrite enc_app, units_app in IH. change (enc [e]) with (enc_entry e ++ []) in IH.
      rewrite app_nil_r in IH. change (units [e]) with (eunits e + 0) in IH. rewrite Z.add_0_r in IH.
      rewrite <- app_assoc in IH. rewrite units_cons in *.
      change (xe_search (S k)) with (xe_search (S k)) in IH. rewrite IH by lia. reflexivity. }
  intros es rest name W H. pose proof (length_fuel es H) as L.
  pose proof (G es (Z.to_nat XA_NENTS) [] rest name (units es) W L ltac:(reflexivity)) as E.
  change (enc [] ++ enc es ++ rest) with (enc es ++ rest) in E. change (units []) with 0 in E. rewrite E.
  pose proof (search_spec es (S (Z.to_nat XA_NENTS)) [] rest name (units es) W ltac:(lia) ltac:(reflexivity)) as F.
  change (enc [] ++ enc es ++ rest) with (enc es ++ rest) in F. change (units []) with 0 in F. rewrite F.
  destruct (find_pos es name) as [[[p x] q]|]; reflexivity.
Qed.

Lemma xan_search_rep : forall n es name, node_rep n es ->
  xan_search n name = option_map (fun '(p, _, _) => units p) (find_pos es name).
Proof.
  intros n es name (W & U & N & B). unfold xan_search. rewrite N, B.
  destruct (xe_calc_nents (zlen name) 0 <=? units es) eqn:E.
  - apply search_spec_full; auto.
  - destruct (find_pos es name) as [[[p x] q]|] eqn:F; [|reflexivity]. exfalso.
    apply find_pos_some in F. destruct F as (-> & <- & _).
    rewrite units_app, units_cons in E. pose proof (units_nonneg p). pose proof (units_nonneg q).
    unfold eunits, xe_calc_nents, xe_aligned, XUNIT in E. pose proof (zlen_nonneg _ (snd x)). lia.
Qed.

(* appending *)
Lemma assign_spec : forall pre k name value, wf_entry (name, value) ->
  eunits (name, value) * XUNIT <= k ->
  xe_assign (enc pre ++ zrepeat 0 k) (units pre) name value =
  enc pre ++ enc_entry (name, value) ++ zrepeat 0 (k - XUNIT * eunits (name, value)).
Proof.
  intros pre k name value [W1 W2] Hk. cbn [fst snd] in *.
  pose proof (zlen_nonneg _ name) as N1. pose proof (zlen_nonneg _ value) as N2.
  pose proof (aligned_ge (zlen name) N1) as A1. pose proof (aligned_ge (zlen value) N2) as A2.
  pose proof (calc_nents_8 (zlen name) (zlen value) N1 N2) as [C _].
  unfold eunits in *. cbn [fst snd] in *.
  unfold xe_assign. unfold u16, u32.
  rewrite (Z.mod_small (zlen name)) by lia. rewrite (Z.mod_small (zlen value)) by lia.
  pose proof (zlen_enc pre) as LP.
  set (K := k). 
  assert (S1 : zput (enc pre ++ zrepeat 0 k) (XUNIT * units pre) (le_enc 2 (zlen name)) =
               enc pre ++ le_enc 2 (zlen name) ++ zrepeat 0 (k - 2)).
  { rewrite zput_app_r by lia. f_equal. replace (XUNIT * units pre - zlen (enc pre)) with 0 by lia.
    rewrite zput_zrepeat by (rewrite ?zlen_le_enc; lia). rewrite zrepeat_0 by lia. cbn [app]. f_equal.
    rewrite zlen_le_enc. f_equal. lia. }
  unfold K. rewrite S1.
  assert (S2 : zput (enc pre ++ le_enc 2 (zlen name) ++ zrepeat 0 (k - 2)) (XUNIT * units pre + 4)
                 (le_enc 4 (zlen value)) =
               enc pre ++ enc_head (name, value) ++ zrepeat 0 (k - 8)).
  { unfold enc_head. cbn [fst snd]. rewrite <- !app_assoc. rewrite zput_app_r by lia. f_equal.
    rewrite zput_app_r by (rewrite zlen_le_enc; lia). f_equal.
    rewrite zput_zrepeat by (rewrite ?zlen_le_enc; lia). rewrite !zlen_le_enc.
    replace (XUNIT * units pre + 4 - zlen (enc pre) - Z.of_nat 2) with 2 by lia.
    change (zrepeat 0 2) with [0; 0]. f_equal. f_equal. f_equal. lia. }
  rewrite S2.
  assert (S3 : zput (enc pre ++ enc_head (name, value) ++ zrepeat 0 (k - 8)) (XUNIT * (units pre + 1)) name =
               enc pre ++ enc_head (name, value) ++ padded name ++ zrepeat 0 (k - 8 - xe_aligned (zlen name))).
  { rewrite zput_app_r by (unfold XUNIT in *; lia). f_equal.
    rewrite zput_app_r by (rewrite zlen_enc_head; unfold XUNIT in *; lia). f_equal.
    rewrite zput_zrepeat; rewrite ?zlen_enc_head; [|unfold XUNIT in *; lia|unfold XUNIT in *; lia].
    replace (XUNIT * (units pre + 1) - zlen (enc pre) - 8) with 0 by (unfold XUNIT in *; lia).
    rewrite (zrepeat_0 _ 0 0) by lia. cbn [app]. unfold padded. rewrite <- app_assoc. f_equal.
    rewrite <- (zrepeat_split _ 0 (k - 8 - 0 - zlen name) (xe_aligned (zlen name) - zlen name)) || 
    rewrite (zrepeat_split _ 0 (k - 8 - 0 - zlen name) (xe_aligned (zlen name) - zlen name)) by lia.
    f_equal. f_equal. lia. }
  rewrite S3.
  rewrite zput_app_r by (unfold XUNIT in *; lia). f_equal.
  unfold enc_entry. cbn [fst snd]. rewrite <- !app_assoc.
  rewrite zput_app_r by (rewrite zlen_enc_head; unfold XUNIT in *; lia). f_equal.
  rewrite zput_app_r by (rewrite zlen_enc_head, zlen_padded; unfold XUNIT in *; lia). f_equal.
  rewrite zlen_enc_head, zlen_padded.
  rewrite zput_zrepeat; [|unfold XUNIT in *; lia|unfold XUNIT in *; lia].
  replace (XUNIT * (units pre + 1) + xe_aligned (zlen name) - zlen (enc pre) - 8 - xe_aligned (zlen name))
    with 0 by (unfold XUNIT in *; lia).
  rewrite (zrepeat_0 _ 0 0) by lia. cbn [app]. unfold padded. rewrite <- app_assoc. f_equal.
  rewrite (zrepeat_split _ 0 (k - 8 - xe_aligned (zlen name) - 0 - zlen value)
             (xe_aligned (zlen value) - zlen value)) by lia.
  f_equal. f_equal. lia.
Qed.

Lemma xan_insert_rep : forall n es name value, node_rep n es -> wf_entry (name, value) ->
  (units es + eunits (name, value) <= XA_NENTS ->
     exists n', xan_insert n name value = Some n' /\ node_rep n' (es ++ [(name, value)])) /\
  (XA_NENTS < units es + eunits (name, value) -> xan_insert n name value = None).
Proof.
  intros n es name value (W & U & N & B) We. unfold xan_insert. rewrite N.
  change (xe_calc_nents (zlen name) (zlen value)) with (eunits (name, value)). cbv zeta.
  split; intros H.
  - replace (XA_NENTS - units es <? eunits (name, value)) with false by lia.
    eexists. split; [reflexivity|]. rewrite B.
    pose proof (units_nonneg es) as U0. pose proof (eunits_pos (name, value)) as U1.
    rewrite assign_spec by (auto; unfold XUNIT in *; lia).
    destruct (read_entry es (name, value)
       (zrepeat 0 (XUNIT * (XA_NENTS - units es) - XUNIT * eunits (name, value))) We)
      as (_ & _ & _ & _ & E5).
    cbv zeta in E5. rewrite E5.
    assert (Un : units (es ++ [(name, value)]) = units es + eunits (name, value)).
    { rewrite units_app, units_cons. change (units []) with 0. lia. }
    split; [apply Forall_app; auto|]. rewrite Un. split; [lia|]. cbn [xn_nents xn_buf].
    split; [unfold u16; apply Z.mod_small; unfold XA_NENTS in *; lia|].
    rewrite enc_app. change (enc [(name, value)]) with (enc_entry (name, value) ++ []).
    rewrite app_nil_r, <- app_assoc. f_equal. f_equal. f_equal. lia.
  - replace (XA_NENTS - units es <? eunits (name, value)) with true by lia. reflexivity.
Qed.

(* removing *)
Lemma xan_remove_rep : forall n pre e post, node_rep n (pre ++ e :: post) ->
  node_rep (xan_remove n (units pre)) (pre ++ post).
Proof.
  intros n pre e post (W & U & N & B). unfold xan_remove. rewrite N, B.
  apply Forall_app in W. destruct W as [Wp W]. inversion W as [|? ? We Wq]; subst.
  set (tail := zrepeat 0 (XUNIT * (XA_NENTS - units (pre ++ e :: post)))).
  assert (EB : enc (pre ++ e :: post) ++ tail = enc pre ++ enc_entry e ++ enc post ++ tail).
  { rewrite enc_app, enc_cons, <- !app_assoc. reflexivity. }
  rewrite EB.
  destruct (read_entry pre e (enc post ++ tail) We) as (_ & _ & _ & _ & E5).
  cbv zeta in E5. rewrite E5.
  rewrite units_app, units_cons.
  pose proof (units_nonneg pre) as P0. pose proof (units_nonneg post) as P1. pose proof (eunits_pos e) as P2.
  rewrite units_app, units_cons in U.
  pose proof (zlen_enc pre) as LP. pose proof (zlen_enc post) as LQ. pose proof (zlen_enc_entry e) as LE.
  assert (S1 : zsub (XUNIT * (units pre + eunits e))
      (XUNIT * (units pre + (eunits e + units post) - (units pre + eunits e)))
      (enc pre ++ enc_entry e ++ enc post ++ tail) = enc post).
  { rewrite (app_assoc (enc pre)). apply zsub_mid; [rewrite zlen_app; lia|lia]. }
  rewrite S1.
  assert (Cut : exists a b, enc_entry e ++ enc post = a ++ b /\ zlen a = zlen (enc post) /\
      zlen b = zlen (enc_entry e)).
  { exists (ztake (zlen (enc post)) (enc_entry e ++ enc post)),
           (zdrop (zlen (enc post)) (enc_entry e ++ enc post)).
    split; [symmetry; apply ztake_zdrop|].
    pose proof (zlen_nonneg _ (enc_entry e)). pose proof (zlen_nonneg _ (enc post)).
    rewrite zlen_ztake, zlen_zdrop, zlen_app by lia. lia. }
  destruct Cut as (a & b & Eab & La & Lb).
  assert (S2 : zput (enc pre ++ enc_entry e ++ enc post ++ tail) (XUNIT * units pre) (enc post) =
               enc pre ++ enc post ++ b ++ tail).
  { rewrite (app_assoc (enc_entry e)), Eab, <- app_assoc. apply zput_mid; lia. }
  rewrite S2.
  assert (S3 : zput (enc pre ++ enc post ++ b ++ tail)
      (XUNIT * (units pre + (units pre + (eunits e + units post) - (units pre + eunits e))))
      (zrepeat 0 (XUNIT * (units pre + eunits e - units pre))) =
      (enc pre ++ enc post) ++ zrepeat 0 (XUNIT * eunits e) ++ tail).
  { rewrite (app_assoc (enc pre)). rewrite zput_mid.
    - f_equal. f_equal. f_equal. lia.
    - rewrite zlen_app. lia.
    - rewrite zlen_zrepeat by (unfold XUNIT; lia). lia. }
  rewrite S3. split; [apply Forall_app; auto|]. rewrite units_app. split; [lia|].
  cbn [xn_nents xn_buf]. split; [unfold u16; rewrite Z.mod_small; unfold XA_NENTS in *; lia|].
  rewrite enc_app. f_equal. unfold tail. rewrite units_app, units_cons.
  rewrite (zrepeat_split _ 0 (XUNIT * (XA_NENTS - (units pre + units post))) (XUNIT * eunits e))
    by (unfold XUNIT; lia).
  f_equal. f_equal. lia.
Qed.

Lemma setup_rep : node_rep xan_setup [].
Proof.
  split; [constructor|]. split; [vm_compute; discriminate|]. split; [reflexivity|]. reflexivity.
Qed.

(* listing *)
Lemma emit_spec : forall es fuel pre rest fin,
  Forall wf_entry es -> (length es <= fuel)%nat -> fin = units pre + units es ->
  emit_range fuel (enc pre ++ enc es ++ rest) (units pre) fin = map fst es.
Proof.
  induction es as [|e es IH]; intros fuel pre rest fin W Hf Hfin.
  - change (units []) with 0 in Hfin. destruct fuel; cbn [emit_range map]; auto.
    replace (units pre <? fin) with false by lia. reflexivity.
  - destruct fuel as [|k]; [cbn [length] in Hf; lia|]. cbn [emit_range].
    inversion W as [|? ? We Wes]; subst.
    rewrite units_cons. pose proof (eunits_pos e). pose proof (units_nonneg es).
    replace (units pre <? units pre + (eunits e + units es)) with true by lia.
    rewrite enc_cons, <- app_assoc.
    destruct (read_entry pre e (enc es ++ rest) We) as (_ & _ & E3 & _ & E5). cbv zeta in E3, E5.
    rewrite E3, E5. cbn [map]. f_equal.
    specialize (IH k (pre ++ [e]) rest (units pre + (eunits e + units es)) Wes
                   ltac:(cbn [length] in Hf; lia)).
    rewrite enc_app, units_app in IH. change (enc [e]) with (enc_entry e ++ []) in IH.
    rewrite app_nil_r in IH. change (units [e]) with (eunits e + 0) in IH. rewrite Z.add_0_r in IH.
    rewrite <- app_assoc in IH. apply IH. lia.
Qed.
Lemma emit_rep : forall n es, node_rep n es ->
  emit_range (Z.to_nat XA_NENTS) (xn_buf n) 0 (xn_nents n) = map fst es.
Proof.
  intros n es (W & U & N & B). rewrite N, B.
  apply (emit_spec es (Z.to_nat XA_NENTS) [] _ (units es)); auto. apply length_fuel. auto.
Qed.

(* ---------- the slots of an inode ---------- *)

Definition slot_rep (o : option xslot) (es : list entry) : Prop :=
  match o with None => es = [] | Some s => node_rep (s_mem s) es end.
Definition st_rep (st : xstate) (ess : list (list entry)) : Prop := Forall2 slot_rep st ess.

Definition aget (es : list entry) (name : bytes) : option bytes :=
  option_map snd (find (fun e => bytes_eqb (fst e) name) es).

Lemma aget_none : forall es name, aget es name = None <-> ~ In name (map fst es).
Proof.
  intros es name. unfold aget. induction es as [|e es IH]; cbn [find map In]; [cbn; tauto|].
  destruct (bytes_eqb (fst e) name) eqn:B.
  - apply bytes_eqb_eq in B. cbn [option_map]. split; [discriminate|tauto].
  - assert (fst e <> name) by (intros G; rewrite G, bytes_eqb_refl in B; discriminate). tauto.
Qed.
Lemma aget_app : forall a b name, aget (a ++ b) name =
  match aget a name with Some v => Some v | None => aget b name end.
Proof.
  intros a b name. unfold aget. induction a as [|e a IH]; cbn [find app option_map]; [reflexivity|].
  destruct (bytes_eqb (fst e) name); [reflexivity|]. exact IH.
Qed.
Lemma aget_cons : forall e b name, aget (e :: b) name =
  if bytes_eqb (fst e) name then Some (snd e) else aget b name.
Proof. intros. unfold aget. cbn [find]. destruct (bytes_eqb (fst e) name); reflexivity. Qed.
Lemma aget_nodup : forall p x q name, NoDup (map fst (p ++ x :: q)) ->
  aget (p ++ x :: q) name = if bytes_eqb (fst x) name then Some (snd x) else aget (p ++ q) name.
Proof.
  intros p x q name N. rewrite !aget_app, aget_cons.
  destruct (bytes_eqb (fst x) name) eqn:B; [|reflexivity].
  apply bytes_eqb_eq in B. rewrite map_app in N. cbn [map] in N. apply NoDup_remove in N.
  destruct N as [_ N]. replace (aget p name) with (@None bytes); [reflexivity|].
  symmetry. apply aget_none. subst. intros G. apply N. apply in_or_app. auto.
Qed.

Lemma lookup_spec : forall st ess k name, st_rep st ess ->
  match lookup_at st k name with
  | None => ~ In name (map fst (concat ess))
  | Some (j, u) => exists A s B EA p x q EB,
      st = A ++ Some s :: B /\ ess = EA ++ (p ++ x :: q) :: EB /\ length A = length EA /\
      j = (k + length A)%nat /\ u = units p /\ fst x = name /\ node_rep (s_mem s) (p ++ x :: q) /\
      st_rep A EA /\ st_rep B EB
  end.
Proof.
  induction st as [|o st IH]; intros ess k name R; inversion R as [|? es ? ess' Ro Rr]; subst; cbn [lookup_at].
  - cbn. tauto.
  - specialize (IH ess' (S k) name Rr). cbn [concat]. rewrite map_app.
    assert (Next : forall o, slot_rep o es -> ~ In name (map fst es) ->
      match lookup_at st (S k) name with
      | None => ~ In name (map fst es ++ map fst (concat ess'))
      | Some (j, u) => exists A s B EA p x q EB,
        o :: st = A ++ Some s :: B /\ es :: ess' = EA ++ (p ++ x :: q) :: EB /\ length A = length EA /\
        j = (k + length A)%nat /\ u = units p /\ fst x = name /\ node_rep (s_mem s) (p ++ x :: q) /\
        st_rep A EA /\ st_rep B EB
      end).
    { intros o' Ho Hn. destruct (lookup_at st (S k) name) as [[j u]|].
      - destruct IH as (A & s & B & EA & p & x & q & EB & H1 & H2 & H3 & H4 & H5 & H6 & H7 & H8 & H9).
        exists (o' :: A), s, B, (es :: EA), p, x, q, EB. subst. cbn [length].
        repeat split; auto; try lia; try (apply H7). constructor; auto.
      - rewrite in_app_iff. tauto. }
    destruct o as [s|]; cbn [slot_rep] in Ro.
    + rewrite (xan_search_rep _ _ name Ro). destruct (find_pos es name) as [[[p x] q]|] eqn:F; cbn [option_map].
      * apply find_pos_some in F. destruct F as (-> & F & _).
        exists [], s, st, [], p, x, q, ess'. cbn [app length]. repeat split; auto; try lia; try (apply Ro); constructor.
      * apply (Next (Some s)); auto. apply find_pos_none. auto.
    + subst es. apply (Next None); cbn; auto.
Qed.

Lemma st_rep_app : forall A EA B EB, st_rep A EA -> st_rep B EB -> st_rep (A ++ B) (EA ++ EB).
Proof. intros. apply Forall2_app; auto. Qed.

Lemma insert_spec : forall st ess k name value orc e st' j,
  st_rep st ess -> wf_entry (name, value) -> insert_at st k name value orc = (e, st', j) ->
  match e with
  | XOk => exists EA es EB, ess = EA ++ es :: EB /\ j = (k + length EA)%nat /\
      st_rep st' (EA ++ (es ++ [(name, value)]) :: EB) /\ length st' = length st /\
      Forall (fun x => XA_NENTS < units x + eunits (name, value)) EA
  | XNoSpc => st_rep st' ess /\ length st' = length st /\
      (In false orc \/ (length orc < length st)%nat \/
       Forall (fun x => XA_NENTS < units x + eunits (name, value)) ess)
  | _ => False
  end.
Proof.
  induction st as [|o st IH]; intros ess k name value orc e st' j R W H;
    inversion R as [|? es ? ess' Ro Rr]; subst; cbn [insert_at] in H.
  - inversion H; subst. split; [constructor|]. split; [reflexivity|]. right; right. constructor.
  - destruct o as [s|]; cbn [slot_rep] in Ro.
    + destruct (xan_insert_rep (s_mem s) es name value Ro W) as [I1 I2].
      destruct (Z_le_gt_dec (units es + eunits (name, value)) XA_NENTS) as [G|G].
      * destruct (I1 G) as (n' & E & R'). rewrite E in H. inversion H; subst.
        exists [], es, ess'. cbn [app length]. split; [reflexivity|]. split; [lia|]. split; [constructor; auto|]. split; [lia|]. constructor.
      * rewrite I2 in H by lia. destruct (insert_at st (S k) name value orc) as [[e1 r1] j1] eqn:E.
        inversion H; subst. specialize (IH _ _ _ _ _ _ _ _ Rr W E). destruct e; try contradiction.
        -- destruct IH as (EA & es1 & EB & -> & -> & H3 & H4 & H5). exists (es :: EA), es1, EB. cbn [app length].
           split; [reflexivity|]. split; [lia|]. split; [constructor; auto|]. split; [lia|]. constructor; [lia|auto].
        -- destruct IH as (H1 & H2 & H3). cbn [length].
           split; [constructor; auto|]. split; [lia|].
           destruct H3 as [H3|[H3|H3]]; [left|right; left; lia|right; right; constructor; [lia|auto]]; auto.
    + subst es. destruct orc as [|[|] orc].
      * inversion H; subst. split; [constructor; auto; reflexivity|]. split; [reflexivity|]. right; left. cbn; lia.
      * cbn [s_mem] in H. destruct (xan_insert_rep xan_setup [] name value setup_rep W) as [I1 I2].
        destruct (Z_le_gt_dec (units [] + eunits (name, value)) XA_NENTS) as [G|G].
        -- destruct (I1 G) as (n' & E & R'). rewrite E in H. inversion H; subst.
           exists [], [], ess'. cbn [app length]. split; [reflexivity|]. split; [lia|]. split; [constructor; auto|]. split; [lia|]. constructor.
        -- rewrite I2 in H by lia. destruct (insert_at st (S k) name value orc) as [[e1 r1] j1] eqn:E.
           inversion H; subst. specialize (IH _ _ _ _ _ _ _ _ Rr W E). destruct e; try contradiction.
           ++ destruct IH as (EA & es1 & EB & -> & -> & H3 & H4 & H5). exists ([] :: EA), es1, EB. cbn [app length].
              split; [reflexivity|]. split; [lia|]. split; [constructor; auto; exact setup_rep|]. split; [lia|]. constructor; [lia|auto].
           ++ destruct IH as (H1 & H2 & H3). cbn [length].
              split; [constructor; auto; exact setup_rep|]. split; [lia|].
              destruct H3 as [H3|[H3|H3]]; [left; right; auto|right; left; lia|right; right; constructor; [lia|auto]].
      * inversion H; subst. split; [constructor; auto; reflexivity|]. split; [reflexivity|]. left. left. reflexivity.
Qed.

(* acting on one slot *)
Lemma nth_error_split_at : forall A (a : list A) x b, nth_error (a ++ x :: b) (length a) = Some x.
Proof. intros. rewrite nth_error_app2 by lia. replace (length a - length a)%nat with O by lia. reflexivity. Qed.
Lemma upd_app : forall A (a : list A) x b y, upd (a ++ x :: b) (length a) y = a ++ y :: b.
Proof. induction a; intros; cbn [upd app length]; [reflexivity|]. f_equal. apply IHa. Qed.
Lemma at_slot_app : forall A s B f, at_slot (A ++ Some s :: B) (length A) f = A ++ Some (f s) :: B.
Proof. intros. unfold at_slot. rewrite nth_error_split_at, upd_app. reflexivity. Qed.

Lemma at_slot_dirtify : forall st ess i, st_rep st ess -> st_rep (at_slot st i dirtify) ess.
Proof.
  intros st ess i R. unfold at_slot. destruct (nth_error st i) as [[s|]|] eqn:E; auto.
  apply nth_error_split in E. destruct E as (A & B & -> & <-). rewrite upd_app.
  apply Forall2_app_inv_l in R. destruct R as (EA & EB & RA & RB & ->).
  inversion RB; subst. apply Forall2_app; auto.
Qed.
Lemma at_slot_remove : forall st EA p x q EB, st_rep st (EA ++ (p ++ x :: q) :: EB) ->
  st_rep (at_slot st (length EA) (fun s => with_mem s (xan_remove (s_mem s) (units p)))) (EA ++ (p ++ q) :: EB).
Proof.
  intros st EA p x q EB R. apply Forall2_app_inv_r in R. destruct R as (A & B & RA & RB & ->).
  inversion RB as [|o ? B' ? Ro RB']; subst. pose proof (Forall2_length _ _ _ _ _ RA) as L. rewrite <- L.
  destruct o as [s|]; cbn [slot_rep] in Ro; [|destruct p; discriminate].
  rewrite at_slot_app. apply Forall2_app; auto. constructor; auto. cbn [slot_rep with_mem s_mem].
  eapply xan_remove_rep; eauto.
Qed.
Lemma at_slot_length : forall st i f, length (at_slot st i f) = length st.
Proof.
  intros. unfold at_slot. destruct (nth_error st i) as [[s|]|]; auto. apply upd_length.
Qed.
