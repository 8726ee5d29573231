(* Host <-> file-system identity mapping, lib/idsmap.c.  Users and groups use two
   instances of the same code (lines 287-457 and 461-634); one table type serves both.
   Memory exhaustion while loading the table (a load-time error) is left out. *)
From Verif Require Import Base.

(* idsmap_init_hmaps uses a fixed capacity; it is a parameter > 0 here.
   An entry is (host id, fs id).  Bins are lists, newest entry first. *)
Record idtab := mkTab { t_cap : Z; t_htof : Z -> list (Z * Z); t_ftoh : Z -> list (Z * Z) }.

(* idsmap_init_hmaps: all bins empty *)
Definition tab_init (cap : Z) : idtab := mkTab cap (fun _ => []) (fun _ => []).

(* idsmap_umap_slot_of, lib/idsmap.c:299-302 *)
Definition slot_of (t : idtab) (id : Z) : Z := id mod t_cap t.

Definition push (bins : Z -> list (Z * Z)) (s : Z) (e : Z * Z) : Z -> list (Z * Z) :=
  fun i => if i =? s then e :: bins i else bins i.

(* idsmap_insert_umap, lib/idsmap.c:332-352 (and insert_gmap, 506-526) *)
Definition tab_insert (t : idtab) (e : Z * Z) : idtab :=
  mkTab (t_cap t) (push (t_htof t) (slot_of t (fst e)) e) (push (t_ftoh t) (slot_of t (snd e)) e).

(* silofs_idsmap_populate_uids, lib/idsmap.c:644-657 *)
Definition tab_populate (cap : Z) (es : list (Z * Z)) : idtab :=
  fold_left tab_insert es (tab_init cap).

(* idsmap_lookup_uhtof / uftoh, lib/idsmap.c:383-423 *)
Definition lookup_htof (t : idtab) (h : Z) : option (Z * Z) :=
  find (fun e => fst e =? h) (t_htof t (slot_of t h)).
Definition lookup_ftoh (t : idtab) (f : Z) : option (Z * Z) :=
  find (fun e => snd e =? f) (t_ftoh t (slot_of t f)).

(* idsmap_resolve_uhtof / uftoh, lib/idsmap.c:425-457 with idsmap_noent_status 280-283;
   result: (accepted?, id) *)
Definition resolve_htof (t : idtab) (allow : bool) (h : Z) : bool * Z :=
  match lookup_htof t h with Some e => (true, snd e) | None => (allow, h) end.
Definition resolve_ftoh (t : idtab) (allow : bool) (f : Z) : bool * Z :=
  match lookup_ftoh t f with Some e => (true, fst e) | None => (allow, f) end.

Definition NOID := 2 ^ 32 - 1.   (* (uid_t)(-1) *)

Record idsmap := mkIds { im_u : idtab; im_g : idtab; im_allow : bool }.

Definition res1 (rs : idtab -> bool -> Z -> bool * Z) (t : idtab) (allow : bool) (id : Z) :=
  if id =? NOID then (true, id) else rs t allow id.

(* silofs_idsmap_map_uidgid, lib/idsmap.c:686-706; None is -ENOENT *)
Definition map_uidgid (m : idsmap) (u g : Z) : option (Z * Z) :=
  let '(e1, u') := res1 resolve_htof (im_u m) (im_allow m) u in
  let '(e2, g') := res1 resolve_htof (im_g m) (im_allow m) g in
  if e1 && e2 then Some (u', g') else None.

(* silofs_idsmap_rmap_uidgid, lib/idsmap.c:708-728 *)
Definition rmap_uidgid (m : idsmap) (u g : Z) : option (Z * Z) :=
  let '(e1, u') := res1 resolve_ftoh (im_u m) (im_allow m) u in
  let '(e2, g') := res1 resolve_ftoh (im_g m) (im_allow m) g in
  if e1 && e2 then Some (u', g') else None.

(* a map loaded from configured tables (CAP is the bins count, lib/idsmap.c) *)
Definition idsmap_load (cap : Z) (users groups : list (Z * Z)) (allow : bool) : idsmap :=
  mkIds (tab_populate cap users) (tab_populate cap groups) allow.
