(* C57: content addresses and their names. *)
From Verif Require Import Base AddrModel MntModel WalkModel PackModel RulesModel RulesSpec RulesProofs.
From Verif Require Import CaddrModel CaddrSpec CaddrProofs.

(* the name has the documented form and no other text has it *)
Theorem caddr_name_form : forall c, sound_caddr c ->
  name_of c (caddr_to_name c) /\ forall t, name_of c t -> t = caddr_to_name c.
Proof.
  intros c HC. pose proof (name_made c HC) as HN. split; [auto|]. intros t HT. eapply name_one_text; eauto.
Qed.

(* different addresses have different names: no object, archive or boot-ref takes the place of another *)
Theorem caddr_names_apart : forall c c', sound_caddr c -> sound_caddr c' ->
  caddr_to_name c = caddr_to_name c' -> c = c'.
Proof.
  intros c c' HC HC' E. apply (name_one_addr c c' (caddr_to_name c)); [apply name_made; auto|]. rewrite E. apply name_made; auto.
Qed.

(* a name reads back as its address, whatever space stands around it *)
Theorem caddr_read_back : forall c lead trail, sound_caddr c -> whole_size c -> Forall space lead -> Forall space trail ->
  Z.of_nat (length lead + length trail) < 2 ^ 60 ->
  caddr_by_name (lead ++ caddr_to_name c ++ trail) = Some c.
Proof.
  intros c lead trail HC HW HL HT HN. apply by_name_taken; [|apply name_taken; auto; apply name_made; auto].
  pose proof (name_made c HC) as (ty & sz & hx & EN & HTY & HSZ & HH & _). destruct HC as (HHL & _ & HS & HTP).
  pose proof (numeral_bound 10 _ _ ltac:(lia) HTY ltac:(lia)). pose proof (numeral_bound 16 _ _ ltac:(lia) HSZ ltac:(lia)).
  pose proof (hex_len _ _ HH) as HX. unfold zlen, NPOS. rewrite EN, !app_length. cbn [length intro_text]. lia.
Qed.

(* what is accepted, and as what: nothing else *)
Theorem caddr_read_iff : forall t c, Z.of_nat (length t) < 2 ^ 60 -> (caddr_by_name t = Some c <-> taken t c).
Proof. intros t c H. apply by_name_taken. unfold zlen, NPOS. lia. Qed.

(* ... in particular only addresses that something can be stored under *)
Theorem caddr_read_sound : forall t c, Z.of_nat (length t) < 2 ^ 60 -> caddr_by_name t = Some c ->
  sound_caddr c /\ whole_size c.
Proof.
  intros t c H HR. apply caddr_read_iff in HR; [|auto].
  destruct HR as (lead & body & trail & _ & _ & _ & _ & _ & _ & _ & ve & ty & sz & sp & hx & rest & _ & _ & HTY & HSZ & _ & HH & HL & HW).
  split; [|auto]. split; [auto|]. split; [eapply hex_is_bytes; eauto|].
  destruct HSZ as (? & ? & ? & ? & ? & ? & _ & _ & _ & _ & HZ & _). split; [auto|]. destruct HW as [[HW _]|[HW _]]; tauto.
Qed.

(* the addresses which silofs makes names for that are read again: boot records, and the index
   of an archive *)
Theorem caddr_index_whole : forall h n, 0 <= n -> whole_size (mkCaddr h (index_size n) CT_PACKIDX).
Proof.
  intros h n HN. right. cbn [ca_type ca_size]. split; [left; reflexivity|]. unfold index_size, LBK_SIZE.
  exists ((HDR_SIZE + n * DSC_SIZE + 65536 - 1) / 65536 * 64). lia.
Qed.

Definition toy_hash : bytes := map (fun i => (Z.of_nat i * 37 + 171) mod 256) (seq 0 32).
Definition toy_boot : caddr := mkCaddr toy_hash 1024 1.
Definition toy_seg : caddr := mkCaddr toy_hash 65536 3.
(* silofs.v1.1.400:abd0f51a3f6489aed3f81d42678cb1d6fb20456a8fb4d9fe23486d92b7dc0126 *)
Definition toy_text : bytes :=
  [115; 105; 108; 111; 102; 115; 46; 118; 49; 46; 49; 46; 52; 48; 48; 58;
   97; 98; 100; 48; 102; 53; 49; 97; 51; 102; 54; 52; 56; 57; 97; 101;
   100; 51; 102; 56; 49; 100; 52; 50; 54; 55; 56; 99; 98; 49; 100; 54;
   102; 98; 50; 48; 52; 53; 54; 97; 56; 102; 98; 52; 100; 57; 102; 101;
   50; 51; 52; 56; 54; 100; 57; 50; 98; 55; 100; 99; 48; 49; 50; 54].
Lemma toy_bytes : all_bytes toy_hash.
Proof. unfold toy_hash, all_bytes, is_byte. apply Forall_forall. intros x HX. apply in_map_iff in HX. destruct HX as [i [<- _]]. apply Z.mod_pos_bound. lia. Qed.
Lemma toy_sound : sound_caddr toy_boot /\ whole_size toy_boot.
Proof. split; [split; [reflexivity|]; split; [apply toy_bytes|]; cbn; lia|left; split; reflexivity]. Qed.

Example caddr_name_form_ex : sound_caddr toy_boot /\ caddr_to_name toy_boot = toy_text.
Proof. split; [apply toy_sound|vm_compute; reflexivity]. Qed.
Example caddr_names_apart_ex : sound_caddr toy_boot /\ sound_caddr toy_seg /\ toy_boot <> toy_seg /\
  caddr_to_name toy_boot <> caddr_to_name toy_seg.
Proof. split; [apply toy_sound|]. split; [split; [reflexivity|]; split; [apply toy_bytes|]; cbn; lia|]. split; discriminate. Qed.
Example caddr_read_back_ex : caddr_by_name ([32; 9] ++ toy_text ++ [10]) = Some toy_boot.
Proof. vm_compute. reflexivity. Qed.
Example caddr_index_whole_ex : caddr_by_name (caddr_to_name (mkCaddr toy_hash (index_size 1000) CT_PACKIDX)) = Some (mkCaddr toy_hash 262144 2).
Proof. vm_compute. reflexivity. Qed.
(* taken for something: also with signs, 0x and capitals; refused: other version, type, size, shorter digest, other characters *)
Example caddr_read_iff_ex :
  caddr_by_name (s_silofs_v ++ [43; 49; 46; 32; 49; 46; 48; 88; 52; 48; 48; 58; 65; 66] ++ skipn 18 toy_text) = Some toy_boot /\
  caddr_by_name (s_silofs_v ++ [50; 46; 49; 46; 52; 48; 48] ++ skipn 15 toy_text) = None /\
  caddr_by_name (s_silofs_v ++ [49; 46; 52; 46; 52; 48; 48] ++ skipn 15 toy_text) = None /\
  caddr_by_name (s_silofs_v ++ [49; 46; 49; 46; 52; 48; 49] ++ skipn 15 toy_text) = None /\
  caddr_by_name (firstn 79 toy_text) = None /\ caddr_by_name (firstn 79 toy_text ++ [103]) = None /\ caddr_by_name [] = None.
Proof. vm_compute. repeat split; reflexivity. Qed.

(* ---- beyond ---- *)
(* a text is accepted though it goes on behind the digest: another digest of more digits, or
   anything else, is cut without a word *)
Theorem caddr_tail_refuted : exists c t, caddr_by_name t = Some c /\
  (exists more, more <> [] /\ ~ In 32 more /\ t = caddr_to_name c ++ more) /\
  ~ exists c' lead trail, sound_caddr c' /\ Forall space lead /\ Forall space trail /\ t = lead ++ caddr_to_name c' ++ trail.
Proof.
  exists toy_boot, (toy_text ++ [48; 48]). split; [vm_compute; reflexivity|]. split.
  - exists [48; 48]. split; [discriminate|]. split; [intros [H|[H|[]]]; discriminate|]. vm_compute. reflexivity.
  - intros (c' & lead & trail & HC & HL & HT & E). pose proof (name_made c' HC) as (ty & sz & hx & EN & HTY & HSZ & HH & _).
    destruct lead as [|x lead].
    2: { inversion HL as [|? ? HX _]; subst. cbn [app toy_text] in E. injection E as <- _. unfold space in HX. lia. }
    destruct (snoc_cases trail) as [-> |[a [x ->]]].
    2: { apply Forall_app in HT. destruct HT as [_ HT]. inversion HT as [|? ? HX _]; subst. cbn [app] in E. rewrite app_assoc in E.
         change (toy_text ++ [48; 48]) with ((toy_text ++ [48]) ++ [48]) in E. apply app_inj_tail in E. destruct E as [_ <-]. unfold space in HX. lia. }
    cbn [app] in E. rewrite app_nil_r, EN in E. apply (f_equal (skipn 10)) in E. cbn [app intro_text skipn toy_text] in E.
    destruct HTY as [HTY _], HSZ as [HSZ _].
    change (49 :: 46 :: ?r) with ([49] ++ 46 :: r) in E.
    apply cut_same in E; [|intros [H|[]]; discriminate|eapply numeral_no; [|eassumption|left; reflexivity]; lia]. destruct E as [<- E].
    change (52 :: 48 :: 48 :: 58 :: ?r) with ([52; 48; 48] ++ 58 :: r) in E.
    apply cut_same in E; [|intros [H|[H|[H|[]]]]; discriminate|eapply numeral_no; [|eassumption|right; reflexivity]; lia]. destruct E as [_ E].
    apply hex_len in HH. destruct HC as [HC _]. rewrite HC, <- E in HH. vm_compute in HH. discriminate.
Qed.
(* a later version of the format is taken for version 1 if it is large enough *)
Theorem caddr_version_refuted : exists ve v t c, numeral 10 ve v /\ v <> 1 /\ t = intro_text ++ ve ++ skipn 9 (caddr_to_name c) /\
  caddr_by_name t = Some c.
Proof.
  exists [52; 50; 57; 52; 57; 54; 55; 50; 57; 55], 4294967297, (intro_text ++ [52; 50; 57; 52; 57; 54; 55; 50; 57; 55] ++ skipn 9 (caddr_to_name toy_boot)), toy_boot.
  split; [|split; [lia|]; split; [reflexivity|]; vm_compute; reflexivity].
  apply numeral_run. split; [discriminate|]. repeat (eapply run_cons; [instantiate (1 := _ - 48); split; [|left; split; [|]]; [..|symmetry; apply Zplus_minus]; cbn; lia|]).
  apply run_nil.
Qed.
(* an address of an object has a name that does not read back when its size is odd *)
Theorem caddr_odd_refuted : exists c, sound_caddr c /\ caddr_by_name (caddr_to_name c) = None.
Proof.
  exists (mkCaddr toy_hash 1000 3). split; [|vm_compute; reflexivity]. split; [reflexivity|]. split; [apply toy_bytes|]. cbn. lia.
Qed.

Print Assumptions caddr_name_form.
Print Assumptions caddr_names_apart.
Print Assumptions caddr_read_back.
Print Assumptions caddr_read_iff.
Print Assumptions caddr_read_sound.
Print Assumptions caddr_index_whole.
Print Assumptions caddr_tail_refuted.
Print Assumptions caddr_version_refuted.
Print Assumptions caddr_odd_refuted.
