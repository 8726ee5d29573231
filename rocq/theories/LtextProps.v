(* C64: what silofs-view prints for an object is its address. *)
From Verif Require Import Base AddrModel AsciiModel LtextModel LtextSpec LtextProofs.

(* an address of a block of data *)
Definition ex_lvid : bytes := [1; 35; 69; 103; 137; 171; 205; 239; 0; 17; 34; 51; 68; 85; 102; 255].
Definition ex_addr : laddr := mkLaddr (mkLsid ex_lvid 8388608 7 12 1 12) 65536 65536.
Lemma ex_fits : fits ex_addr.
Proof. constructor; cbn; try lia. split; [reflexivity|]. repeat constructor; lia. Qed.

(* The text of an address is one line of 79 characters, without blanks. *)
Theorem laddr_text_line : forall a, fits a -> length (laddr_to_ascii a) = 79%nat /\ Forall plain (laddr_to_ascii a).
Proof.
  intros a [[F1 F2] _ _ _ _ _ _ _]. unfold laddr_to_ascii.
  destruct (repr_text (laddr_to_repr a) F1 F2) as [E L]. split; [exact L|]. rewrite E.
  assert (P58 : Forall plain [58]) by (apply Forall_cons; [unfold plain; lia|apply Forall_nil]).
  assert (P45 : Forall plain [45]) by (apply Forall_cons; [unfold plain; lia|apply Forall_nil]).
  pose proof (uuid_plain (r_lvid (laddr_to_repr a))). pose proof (meta_plain (laddr_to_repr a)). pose proof hex8_plain as P8.
  rewrite !Forall_app. repeat split; auto.
Qed.
(* 01234567-89ab-cdef-0011-2233445566ff:110c0c-00800000-00000007-00010000-00010000 *)
Example ex_laddr_text_line : fits ex_addr /\ laddr_to_ascii ex_addr =
  [48; 49; 50; 51; 52; 53; 54; 55; 45; 56; 57; 97; 98; 45; 99; 100; 101; 102; 45; 48; 48; 49; 49; 45;
   50; 50; 51; 51; 52; 52; 53; 53; 54; 54; 102; 102; 58; 49; 49; 48; 99; 48; 99; 45;
   48; 48; 56; 48; 48; 48; 48; 48; 45; 48; 48; 48; 48; 48; 48; 48; 55; 45;
   48; 48; 48; 49; 48; 48; 48; 48; 45; 48; 48; 48; 49; 48; 48; 48; 48].
Proof. split; [exact ex_fits|vm_compute; reflexivity]. Qed.
Print Assumptions laddr_text_line.

(* Different addresses, valid or not, have different texts; none is the begin of another's. *)
Theorem laddr_text_inj : forall a b r s, fits a -> fits b -> laddr_to_ascii a ++ r = laddr_to_ascii b ++ s -> a = b /\ r = s.
Proof.
  intros a b r s HA HB H. assert (E : a = b).
  { apply repr_inj; auto. pose proof (text_rt a r HA) as X. pose proof (text_rt b s HB) as Y. rewrite H in X. congruence. }
  split; [exact E|]. subst b. exact (app_inv_head _ _ _ H).
Qed.
Example ex_laddr_text_inj : fits ex_addr /\ laddr_to_ascii ex_addr ++ [10] = laddr_to_ascii ex_addr ++ [10] /\
  laddr_to_ascii ex_addr <> laddr_to_ascii (mkLaddr (la_lsid ex_addr) (-1) 0).
Proof. split; [exact ex_fits|]. split; [reflexivity|]. vm_compute. discriminate. Qed.
Print Assumptions laddr_text_inj.

(* The text of a valid address, also with more after it on the line, is read as this address;
   that of one that is not valid is refused. *)
Theorem laddr_text_back : forall a rest, fits a ->
  laddr_from_ascii (laddr_to_ascii a ++ rest) = if laddr_isvalid a then Some a else None.
Proof.
  intros a rest H. unfold laddr_from_ascii. rewrite text_rt by auto. cbn [bind]. apply from_to_repr. auto.
Qed.
Example ex_laddr_text_back : fits ex_addr /\ laddr_isvalid ex_addr = true /\
  laddr_from_ascii (laddr_to_ascii ex_addr ++ [10]) = Some ex_addr /\
  laddr_from_ascii (laddr_to_ascii (mkLaddr (la_lsid ex_addr) (-1) 0)) = None.
Proof. split; [exact ex_fits|]. vm_compute. repeat split; reflexivity. Qed.
Print Assumptions laddr_text_back.

(* This holds for every address that the file system makes of a volume, an offset, a type and a
   height: its text names it. *)
Theorem laddr_text_made : forall lvid voff vspace h t off len a rest,
  length lvid = 16%nat -> all_bytes lvid -> 0 <= vspace <= LT_DATABK -> 0 <= h <= H_BOOT -> 0 <= t <= LT_DATABK -> 0 <= len < 2 ^ 32 ->
  a = laddr_setup (lsid_setup lvid voff vspace h t) off len ->
  fits a /\ (laddr_isvalid a = true -> laddr_from_ascii (laddr_to_ascii a ++ rest) = Some a).
Proof.
  intros lvid voff vspace h t off len a rest H1 H2 H3 H4 H5 H6 ->.
  unfold LT_DATABK, H_BOOT in *.
  assert (HZ : 0 <= lseg_size h <= 16777216).
  { unfold lseg_size, LBK_SIZE, NCHILDS, SPMAP_SIZE, SB_SIZE, BOOTREC_SIZE, LSEG_SIZE_MAX.
    repeat match goal with |- context [if ?b then _ else _] => destruct b end; lia. }
  assert (HI : 0 <= lseg_vindex voff (lseg_size h) < 2 ^ 32).
  { unfold lseg_vindex. destruct (0 <? lseg_size h); [apply u32_range|lia]. }
  assert (F : fits (laddr_setup (lsid_setup lvid voff vspace h t) off len)).
  { unfold laddr_setup. destruct (negb _ && negb _) eqn:E; constructor;
      cbn [lsid_setup la_lsid la_pos la_len ls_lvid ls_lsize ls_vindex ls_vspace ls_height ls_ltype]; auto; unfold OFF_NULL; try lia.
    unfold lsid_pos. cbn [lsid_setup ls_lsize] in *. destruct (Z.eqb_spec (lseg_size h) 0) as [EZ|EZ]; [lia|].
    unfold off_rem. unfold off_isnull in E. apply andb_true_iff in E. destruct E as [_ E].
    pose proof (Z.rem_bound_pos off (lseg_size h)). lia. }
  split; [exact F|]. intros HV. rewrite laddr_text_back, HV by exact F. reflexivity.
Qed.
Example ex_laddr_text_made :
  laddr_isvalid (laddr_setup (lsid_setup ex_lvid 70000000000 LT_DATABK 1 LT_DATABK) 70000050176 65536) = true /\
  laddr_from_ascii (laddr_to_ascii (laddr_setup (lsid_setup ex_lvid 70000000000 LT_DATABK 1 LT_DATABK) 70000050176 65536)) =
    Some (laddr_setup (lsid_setup ex_lvid 70000000000 LT_DATABK 1 LT_DATABK) 70000050176 65536).
Proof. vm_compute. split; reflexivity. Qed.
Print Assumptions laddr_text_made.

(* Whatever the text: an address that is read lies within its segment, and its own text is read
   as it again, unless its height could not be read. *)
Theorem laddr_text_read : forall s a rest, laddr_from_ascii s = Some a ->
  0 <= la_pos a /\ 0 <= la_len a /\ la_pos a + la_len a <= ls_lsize (la_lsid a) /\ ls_ltype (la_lsid a) <> LT_NONE /\
  (ls_height (la_lsid a) = 255 \/ fits a /\ laddr_from_ascii (laddr_to_ascii a ++ rest) = Some a).
Proof.
  intros s a rest H. unfold laddr_from_ascii in H. apply bind_some in H. destruct H as (r & HR & H).
  destruct (repr_ranges _ _ HR) as (R1 & R2 & R3 & R4 & R5 & R6 & R7 & R8).
  unfold laddr_from_repr in H. destruct (negb (r_version r =? 1)); [discriminate|]. cbv zeta in H.
  set (b := mkLaddr _ _ _) in H. destruct (laddr_isvalid b) eqn:EV; [|discriminate]. cbn [negb] in H. assert (a = b) by congruence. subst a.
  pose proof EV as EW. unfold laddr_isvalid, laddr_isnull, lsid_isnull, off_isnull in EV.
  assert (F : r_height r = 255 \/ fits b).
  { destruct R5 as [R5|R5]; [left; exact R5|right]. constructor; assumption. }
  subst b. cbn [la_lsid la_pos la_len ls_lvid ls_lsize ls_vindex ls_vspace ls_height ls_ltype] in *.
  split; [lia|]. split; [lia|]. split; [lia|]. split; [unfold LT_NONE in *; lia|].
  destruct F as [F|F]; [left; exact F|right]. split; [exact F|]. rewrite laddr_text_back, EW by exact F. reflexivity.
Qed.
Example ex_laddr_text_read : exists s, s <> laddr_to_ascii ex_addr /\ laddr_from_ascii s = Some ex_addr.
Proof. exists (32 :: laddr_to_ascii ex_addr). split; [vm_compute; discriminate|vm_compute; reflexivity]. Qed.
Print Assumptions laddr_text_read.

(* the text of ex_addr with 'z' for the height and for the type of its space *)
Definition ex_bad : list Z := firstn 38 (laddr_to_ascii ex_addr) ++ [122; 122; 122] ++ skipn 41 (laddr_to_ascii ex_addr).
(* Not every text that is taken is that of an address: of a damaged one the height and the type of
   the space are made up, so that two addresses have the same text. *)
Theorem laddr_text_refuted : exists s a b, nth 38 s 0 = 122 /\ nth 39 s 0 = 122 /\ laddr_from_ascii s = Some a /\
  ls_height (la_lsid a) = 255 /\ ls_vspace (la_lsid a) = LT_NONE /\
  laddr_from_ascii (laddr_to_ascii a) = Some b /\ b <> a /\ laddr_to_ascii a = laddr_to_ascii b.
Proof.
  exists ex_bad, (mkLaddr (mkLsid ex_lvid 8388608 7 0 255 12) 65536 65536), (mkLaddr (mkLsid ex_lvid 8388608 7 0 15 12) 65536 65536).
  repeat split; try (vm_compute; reflexivity). discriminate.
Qed.
Print Assumptions laddr_text_refuted.
