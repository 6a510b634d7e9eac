(** Model of [M21Utilities.getStaffGroupTrees] (m21utilities.py:1734-1794). *)
From Verif Require Import PyStr.
From Coq Require Import Permutation.

(** What is read of a staff group: its staff numbers, without repetition
    ([M21StaffGroupTree.__init__], m21utilities.py:105-121).  A group without
    staves raises there ([min] of nothing). *)
Definition staves := list nat.
Definition numStaves (g : staves) : nat := length g.
Definition lowest (g : staves) : nat := fold_right Nat.min (hd 0 g) g.
Definition subset (a b : staves) : bool := forallb (fun x => existsb (Nat.eqb x) b) a.

(** Python's stable [list.sort]. *)
Fixpoint insert_by {A} (key : A -> nat) (x : A) (l : list A) : list A :=
  match l with
  | [] => [x]
  | y :: l' => if key x <=? key y then x :: l else y :: insert_by key x l'
  end.
Fixpoint sort_by {A} (key : A -> nat) (l : list A) : list A :=
  match l with [] => [] | x :: l' => insert_by key x (sort_by key l') end.

(** The tree links while they are built: the children of the group at each
    position of the sorted list, and the top-level groups, both by position. *)
Record links := mkLinks { kids : nat -> list nat; tops : list nat }.
Definition no_links : links := mkLinks (fun _ => []) [].

(** The inner loop (m21utilities.py:1756-1774): the first acceptable parent. *)
Fixpoint find_parent (gs : list staves) (child : nat) (l : links) (parents : list nat) : option nat :=
  match parents with
  | [] => None
  | p :: ps =>
      if (p =? child) || existsb (Nat.eqb p) (kids l child) then find_parent gs child l ps
      else if (child <? length gs - 1) || negb (match tops l with [] => true | _ => false end) then
        if subset (nth child gs []) (nth p gs []) then Some p else find_parent gs child l ps
      else find_parent gs child l ps
  end.

(** The outer loop (m21utilities.py:1754-1779). *)
Definition link_child (gs : list staves) (l : links) (child : nat) : links :=
  match find_parent gs child l (seq 0 (length gs)) with
  | None => mkLinks (kids l) (tops l ++ [child])
  | Some p => mkLinks (fun x => if x =? p then kids l x ++ [child] else kids l x) (tops l)
  end.
Definition link_all (gs : list staves) : links := fold_left (link_child gs) (seq 0 (length gs)) no_links.

(** A returned tree: a group and its children. *)
Inductive tree := Node (g : staves) (children : list tree).
Definition root (t : tree) : staves := match t with Node g _ => g end.

(** Following the links from a group, siblings sorted by lowest staff
    ([_sortStaffGroupTrees], m21utilities.py:1786-1796); [fuel] bounds the depth. *)
Fixpoint grow (fuel : nat) (gs : list staves) (l : links) (i : nat) : tree :=
  match fuel with
  | O => Node (nth i gs []) []
  | S f => Node (nth i gs []) (map (grow f gs l) (sort_by (fun c => lowest (nth c gs [])) (kids l i)))
  end.
Definition getStaffGroupTrees (groups : list staves) : list tree :=
  let gs := sort_by numStaves groups in
  let l := link_all gs in
  map (grow (length gs) gs l) (sort_by (fun c => lowest (nth c gs [])) (tops l)).

(** The groups of a forest, in reading order. *)
Fixpoint groups_of (t : tree) : list staves :=
  match t with Node g ch => g :: flat_map groups_of ch end.
