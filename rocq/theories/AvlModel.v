(* The balanced ordered index, lib/infra/avl.c.

   The node graph is a tree value; a position inside it (a node together with the chain of its
   parent pointers) is a subtree with the list of frames above it.  Node addresses are the
   numbers nd_id.  Assigning the pointers of a rotation is replacing the subtree, so a mistake
   in restoring a single back pointer is not expressible here.  Comparisons of a child pointer
   with a null pointer are kept (is_left, is_right).  A null dereference or panic is None. *)
From Verif Require Import Base.

Section Avl.
Variable K : Type.
(* avl_keycmp, lib/infra/avl.c:684-688: positive when the first key comes first *)
Variable cmp : K -> K -> Z.

(* struct silofs_avl_node with the object it is embedded in: its key and its address *)
Record anode := mkNd { nd_key : K; nd_id : Z }.
Inductive tree := Leaf | Node (l : tree) (x : anode) (bal : Z) (r : tree).

(* a parent seen from its left child (FL) or right child (FR) *)
Inductive frame := FL (x : anode) (bal : Z) (r : tree) | FR (l : tree) (x : anode) (bal : Z).
Notation path := (list frame).

Fixpoint plug (t : tree) (p : path) : tree :=
  match p with
  | [] => t
  | FL x b r :: q => plug (Node t x b r) q
  | FR l x b :: q => plug (Node l x b t) q
  end.

Definition is_leaf (t : tree) : bool := match t with Leaf => true | _ => false end.
Definition balance (t : tree) : Z := match t with Leaf => 0 | Node _ _ b _ => b end.
Definition fbal (f : frame) : Z := match f with FL _ b _ => b | FR _ _ b => b end.
(* the parent node with the child in place and a new balance *)
Definition join (f : frame) (t : tree) (b : Z) : tree :=
  match f with FL x _ r => Node t x b r | FR l x _ => Node l x b t end.

(* x_parent->left == x, left_child, lib/infra/avl.c:399-403; a null x also equals a null
   left pointer of a parent it hangs right of *)
Definition is_left (f : frame) (t : tree) : bool :=
  match f with FL _ _ _ => true | FR l _ _ => is_leaf t && is_leaf l end.
(* right_child, lib/infra/avl.c:405-409 *)
Definition is_right (f : frame) (t : tree) : bool :=
  match f with FR _ _ _ => true | FL _ _ r => is_leaf t && is_leaf r end.

(* avl_rotate_left, lib/infra/avl.c:325-342 with bst_rotate_left 194-213 *)
Definition rotate_left (t : tree) : option tree :=
  match t with
  | Node xl x _ (Node yl y yb yr) =>
    Some (if yb =? 1 then Node (Node xl x 0 yl) y 0 yr else Node (Node xl x 1 yl) y (-1) yr)
  | _ => None
  end.

(* avl_rotate_right, lib/infra/avl.c:344-361 with bst_rotate_right 215-234 *)
Definition rotate_right (t : tree) : option tree :=
  match t with
  | Node (Node yl y yb yr) x _ xr =>
    Some (if yb =? -1 then Node yl y 0 (Node yr x 0 xr) else Node yl y 1 (Node yr x (-1) xr))
  | _ => None
  end.

(* avl_rotate_left_right, lib/infra/avl.c:363-379 with bst_rotate_left_right 236-267 *)
Definition rotate_left_right (t : tree) : option tree :=
  match t with
  | Node (Node d b _ (Node e c cb f)) a _ g =>
    Some (Node (Node d b (if cb =? 1 then -1 else 0) e) c 0 (Node f a (if cb =? -1 then 1 else 0) g))
  | _ => None
  end.

(* avl_rotate_right_left, lib/infra/avl.c:381-397 with bst_rotate_right_left 269-299 *)
Definition rotate_right_left (t : tree) : option tree :=
  match t with
  | Node d a _ (Node (Node e c cb f) b _ g) =>
    Some (Node (Node d a (if cb =? 1 then -1 else 0) e) c 0 (Node f b (if cb =? -1 then 1 else 0) g))
  | _ => None
  end.

Definition oplug (t : option tree) (p : path) : option tree := option_map (fun t => plug t p) t.

(* avl_insert_fixup, lib/infra/avl.c:411-447; x is never null here *)
Fixpoint insert_fixup (x : tree) (p : path) : option tree :=
  match p with
  | [] => Some x
  | f :: q =>
    if fbal f =? 1 then
      if is_left f x then Some (plug (join f x 0) q)
      else if balance x =? -1 then oplug (rotate_right_left (join f x 1)) q
      else oplug (rotate_left (join f x 1)) q
    else if fbal f =? -1 then
      if is_left f x then
        if balance x =? 1 then oplug (rotate_left_right (join f x (-1))) q
        else oplug (rotate_right (join f x (-1))) q
      else Some (plug (join f x 0) q)
    else insert_fixup (join f x (if is_left f x then -1 else 1)) q
  end.

(* avl_delete_fixup, lib/infra/avl.c:449-506 *)
Fixpoint delete_fixup (x : tree) (p : path) : option tree :=
  match p with
  | [] => Some x
  | f :: q =>
    if fbal f =? 0 then Some (plug (join f x (if is_right f x then -1 else 1)) q)
    else if fbal f =? -1 then
      if is_left f x then delete_fixup (join f x 0) q
      else
        let t := join f x (-1) in
        match t with
        | Leaf => None
        | Node y _ _ _ =>
          match (if balance y =? 1 then rotate_left_right t else rotate_right t) with
          | None => None
          | Some t' => if balance t' =? 1 then Some (plug t' q) else delete_fixup t' q
          end
        end
    else
      if is_right f x then delete_fixup (join f x 0) q
      else
        let t := join f x 1 in
        match t with
        | Leaf => None
        | Node _ _ _ y =>
          match (if balance y =? -1 then rotate_right_left t else rotate_left t) with
          | None => None
          | Some t' => if balance t' =? -1 then Some (plug t' q) else delete_fixup t' q
          end
        end
  end.

(* bst_minimum, lib/infra/avl.c:142-149, from a right child: the minimal node, its right
   subtree and the frames down to it *)
Fixpoint descend_min (l : tree) (x : anode) (b : Z) (r : tree) (p : path) : anode * Z * tree * path :=
  match l with
  | Leaf => (x, b, r, p)
  | Node l' x' b' r' => descend_min l' x' b' r' (FL x b r :: p)
  end.

(* avl_delete, lib/infra/avl.c:508-572: the node at (Node l z b r, p).  With two children the
   successor y takes z's place, links and balance, and the fix-up starts where y was. *)
Definition avl_delete (l : tree) (z : anode) (b : Z) (r : tree) (p : path) : option tree :=
  match l, r with
  | Leaf, _ => delete_fixup r p
  | _, Leaf => delete_fixup l p
  | _, Node rl rx rb rr =>
    let '(y, _, yr, q) := descend_min rl rx rb rr [] in
    delete_fixup yr (q ++ FR l y b :: p)
  end.

(* following a node pointer: the node with its position *)
Fixpoint locate (t : tree) (id : Z) (p : path) : option (tree * anode * Z * tree * path) :=
  match t with
  | Leaf => None
  | Node l x b r =>
    if nd_id x =? id then Some (l, x, b, r, p)
    else match locate l id (FL x b r :: p) with
         | Some z => Some z
         | None => locate r id (FR l x b :: p)
         end
  end.

Fixpoint minimum (t : tree) : option anode :=
  match t with
  | Leaf => None
  | Node l x _ _ => match minimum l with None => Some x | r => r end
  end.
(* bst_maximum, lib/infra/avl.c:151-158 *)
Fixpoint maximum (t : tree) : option anode :=
  match t with
  | Leaf => None
  | Node _ x _ r => match maximum r with None => Some x | m => m end
  end.
Fixpoint up_succ (p : path) : option anode :=
  match p with [] => None | FL x _ _ :: _ => Some x | FR _ _ _ :: q => up_succ q end.
Fixpoint up_pred (p : path) : option anode :=
  match p with [] => None | FR _ x _ :: _ => Some x | FL _ _ _ :: q => up_pred q end.
(* bst_successor, lib/infra/avl.c:160-174 *)
Definition successor_at (r : tree) (p : path) : option anode :=
  match r with Leaf => up_succ p | _ => minimum r end.
(* bst_predecessor, lib/infra/avl.c:176-190 *)
Definition predecessor_at (l : tree) (p : path) : option anode :=
  match l with Leaf => up_pred p | _ => maximum l end.

(* struct silofs_avl: head.parent, head.left, head.right (0: null) and size *)
Record avl := mkAvl { a_root : tree; a_min : option Z; a_max : option Z; a_size : Z }.
Definition avl_empty : avl := mkAvl Leaf None None 0.

(* avl_search_uniq_ipos, lib/infra/avl.c:730-755; None: not unique *)
Fixpoint search_uniq (t : tree) (k : K) (p : path) : option path :=
  match t with
  | Leaf => Some p
  | Node l x b r =>
    let c := cmp (nd_key x) k in
    if 0 <? c then search_uniq r k (FR l x b :: p)
    else if c <? 0 then search_uniq l k (FL x b r :: p)
    else None
  end.
(* avl_search_leaf_ipos, lib/infra/avl.c:757-780 *)
Fixpoint search_leaf (t : tree) (k : K) (p : path) : path :=
  match t with
  | Leaf => p
  | Node l x b r =>
    if cmp (nd_key x) k <? 0 then search_leaf l k (FL x b r :: p) else search_leaf r k (FR l x b :: p)
  end.

(* avl_post_insert_fixup, lib/infra/avl.c:807-824: step the cached ends outward *)
Definition fix_min (t : tree) (m : option Z) : option (option Z) :=
  match m with
  | None => None
  | Some i => match locate t i [] with
              | None => None
              | Some (l, _, _, _, p) =>
                Some (match predecessor_at l p with Some y => Some (nd_id y) | None => m end)
              end
  end.
Definition fix_max (t : tree) (m : option Z) : option (option Z) :=
  match m with
  | None => None
  | Some i => match locate t i [] with
              | None => None
              | Some (_, _, _, r, p) =>
                Some (match successor_at r p with Some y => Some (nd_id y) | None => m end)
              end
  end.

(* avl_insert_leaf, lib/infra/avl.c:826-842 with avl_insert_leaf_at 796-805 *)
Definition insert_at (a : avl) (z : anode) (p : path) : option avl :=
  match insert_fixup (Node Leaf z 0 Leaf) p with
  | None => None
  | Some t => match fix_min t (a_min a), fix_max t (a_max a) with
              | Some mn, Some mx => Some (mkAvl t mn mx (a_size a + 1))
              | _, _ => None
              end
  end.
(* avl_insert_root, lib/infra/avl.c:668-676 *)
Definition insert_root (z : anode) : avl := mkAvl (Node Leaf z 0 Leaf) (Some (nd_id z)) (Some (nd_id z)) 1.
(* silofs_avl_insert, lib/infra/avl.c:861-865 with avl_insert 844-859 *)
Definition avl_insert (a : avl) (z : anode) : option avl :=
  if 0 <? a_size a then insert_at a z (search_leaf (a_root a) (nd_key z) []) else Some (insert_root z).
(* silofs_avl_insert_unique, lib/infra/avl.c:867-870 *)
Definition avl_insert_unique (a : avl) (z : anode) : option (avl * bool) :=
  if 0 <? a_size a then
    match search_uniq (a_root a) (nd_key z) [] with
    | None => Some (a, false)
    | Some p => option_map (fun a' => (a', true)) (insert_at a z p)
    end
  else Some (insert_root z, true).

(* silofs_avl_remove, lib/infra/avl.c:911-916 with avl_remove 902-909, avl_remove_last 878-882
   and avl_remove_rebalance 884-900.  An x outside the tree is undefined. *)
Definition avl_remove (a : avl) (id : Z) : option avl :=
  match locate (a_root a) id [] with
  | None => None
  | Some (l, z, b, r, p) =>
    if 1 <? a_size a then
      let mn := if match a_min a with Some i => i =? id | None => false end
                then option_map nd_id (successor_at r p) else a_min a in
      let mx := if match a_max a with Some i => i =? id | None => false end
                then option_map nd_id (predecessor_at l p) else a_max a in
      option_map (fun t => mkAvl t mn mx (a_size a - 1)) (avl_delete l z b r p)
    else Some avl_empty
  end.

(* avl_find, lib/infra/avl.c:1115-1132 *)
Fixpoint find_in (t : tree) (k : K) : option anode :=
  match t with
  | Leaf => None
  | Node l x _ r =>
    let c := cmp (nd_key x) k in
    if c <? 0 then find_in l k else if 0 <? c then find_in r k else Some x
  end.
(* silofs_avl_find, lib/infra/avl.c:1134-1143 *)
Definition avl_find (a : avl) (k : K) : option anode :=
  if 0 <? a_size a then find_in (a_root a) k else None.

(* avl_lower_bound, lib/infra/avl.c:1050-1063 *)
Fixpoint lower_bound (t : tree) (y : option anode) (k : K) : option anode :=
  match t with
  | Leaf => y
  | Node l x _ r => if 0 <? cmp (nd_key x) k then lower_bound r y k else lower_bound l (Some x) k
  end.
(* avl_upper_bound, lib/infra/avl.c:1066-1079 *)
Fixpoint upper_bound (t : tree) (y : option anode) (k : K) : option anode :=
  match t with
  | Leaf => y
  | Node l x _ r => if 0 <? cmp k (nd_key x) then upper_bound l (Some x) k else upper_bound r y k
  end.
(* silofs_avl_lower_bound 1187-1196, silofs_avl_upper_bound 1198-1207, lib/infra/avl.c *)
Definition avl_lower_bound (a : avl) (k : K) : option anode :=
  if 0 <? a_size a then lower_bound (a_root a) None k else None.
Definition avl_upper_bound (a : avl) (k : K) : option anode :=
  if 0 <? a_size a then upper_bound (a_root a) None k else None.
(* silofs_avl_find_first, lib/infra/avl.c:1168-1177 with avl_find_first_eq 1151-1166 *)
Definition avl_find_first (a : avl) (k : K) : option anode :=
  match avl_lower_bound a k with
  | Some x => if cmp (nd_key x) k =? 0 then Some x else None
  | None => None
  end.

(* avl_replace_exists, lib/infra/avl.c:1262-1271 with avl_node_exchange 1239-1260 and
   avl_replace_fixup 1220-1237: z takes the place of y *)
Definition swap_id (y z : Z) (m : option Z) : option Z :=
  match m with Some i => if i =? y then Some z else m | None => None end.
Definition replace_exists (a : avl) (y : Z) (z : anode) : option avl :=
  match locate (a_root a) y [] with
  | None => None
  | Some (l, _, b, r, p) =>
    Some (mkAvl (plug (Node l z b r) p) (swap_id y (nd_id z) (a_min a)) (swap_id y (nd_id z) (a_max a)) (a_size a))
  end.
(* silofs_avl_insert_replace, lib/infra/avl.c:1273-1288: the new tree and the node replaced *)
Definition avl_insert_replace (a : avl) (z : anode) : option (avl * option anode) :=
  match avl_find a (nd_key z) with
  | None => option_map (fun a' => (a', None)) (avl_insert a z)
  | Some y => if nd_id y =? nd_id z then Some (a, None)
              else option_map (fun a' => (a', Some y)) (replace_exists a (nd_id y) z)
  end.

(* silofs_avl_begin, lib/infra/avl.c:610-613; silofs_avl_next 656-660 with avl_next 620-636;
   the walk "for (x = begin; x != end; x = next(x))"; every round moves to a later node *)
Definition next_of (a : avl) (id : Z) : option (anode * option Z) :=
  match locate (a_root a) id [] with
  | None => None
  | Some (_, x, _, r, p) => Some (x, option_map nd_id (successor_at r p))
  end.
Fixpoint walk (fuel : nat) (a : avl) (cur : option Z) : option (list anode) :=
  match cur with
  | None => Some []
  | Some id => match fuel with
               | O => None
               | S k => match next_of a id with
                        | None => None
                        | Some (x, nx) => option_map (cons x) (walk k a nx)
                        end
               end
  end.
Definition avl_walk (a : avl) : option (list anode) := walk (Z.to_nat (a_size a)) a (a_min a).
(* the walk from silofs_avl_rbegin with silofs_avl_prev, lib/infra/avl.c:662-666 *)
Definition prev_of (a : avl) (id : Z) : option (anode * option Z) :=
  match locate (a_root a) id [] with
  | None => None
  | Some (l, x, _, _, p) => Some (x, option_map nd_id (predecessor_at l p))
  end.
Fixpoint rwalk (fuel : nat) (a : avl) (cur : option Z) : option (list anode) :=
  match cur with
  | None => Some []
  | Some id => match fuel with
               | O => None
               | S k => match prev_of a id with
                        | None => None
                        | Some (x, nx) => option_map (cons x) (rwalk k a nx)
                        end
               end
  end.
Definition avl_rwalk (a : avl) : option (list anode) := rwalk (Z.to_nat (a_size a)) a (a_max a).

(* longest chain of nodes a search visits *)
Fixpoint depth (t : tree) : Z := match t with Leaf => 0 | Node l _ _ r => 1 + Z.max (depth l) (depth r) end.
End Avl.
