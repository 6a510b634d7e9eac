(** Staff groups made from the trees that are read from a Humdrum file, and the trees of a
    file without system decoration (humdrumfile.py). *)
From Coq Require Import List Arith NArith Bool Ascii String.
From Verif Require Import PyStr DecoModel.
Import ListNotations.
Local Open Scope list_scope.

Definition mem (n : nat) (l : list nat) : bool := existsb (Nat.eqb n) l.
Definition without (l m : list nat) : list nat := filter (fun n => negb (mem n m)) l.

(** A staff group: symbol, bar lines, staves (by their index) in the order in which they were
    added; the groups in the order in which they are listed. *)
Definition group := (symbol * bool * list nat)%type.

(** humdrumfile.py:11732-11755: own staves before a subgroup; the set of staves to do is a list. *)
Fixpoint take_before (low : nat) (todo owned : list nat) : list nat * list nat :=
  match owned with
  | [] => ([], todo)
  | n :: l =>
      if low <=? n then ([], todo)
      else if mem n todo
      then let (a, t) := take_before low (without todo [n]) l in (n :: a, t)
      else take_before low todo l
  end.
(** humdrumfile.py:11781-11802: own staves that are left. *)
Fixpoint take_rest (todo owned : list nat) : list nat * list nat :=
  match owned with
  | [] => ([], todo)
  | n :: l =>
      if mem n todo then let (a, t) := take_rest (without todo [n]) l in (n :: a, t) else take_rest todo l
  end.
(** The end of _processStaffGroupDescriptionTree (humdrumfile.py:11780-11810): None is the
    assertion.  Names and instruments of groups are left out. *)
Definition finish (s : symbol) (bar : bool) (owned : list nat) (r : option (list group * list nat * list nat))
  : option (list group * list nat) :=
  match r with
  | None => None
  | Some (gs, st, todo) =>
      let (a, left_over) := take_rest todo owned in
      match left_over with [] => Some ((s, bar, st ++ a) :: gs, st ++ a) | _ => None end
  end.
(** The loop over the subgroups (humdrumfile.py:11727-11778); None: an exception, which is an
    IndexError for a subgroup without staves. *)
Fixpoint make_subs (kids : descs) (owned todo : list nat) : option (list group * list nat * list nat) :=
  match kids with
  | DNil => Some ([], [], todo)
  | DCons s bar own ids k r =>
      match ids with
      | [] => None
      | low :: _ =>
          let (a, todo1) := take_before low todo owned in
          match finish s bar own (make_subs k own ids) with
          | None => None
          | Some (gs1, st1) =>
              match make_subs r owned (without todo1 st1) with
              | None => None
              | Some (gs2, st2, todo2) => Some (gs1 ++ gs2, a ++ st1 ++ st2, todo2)
              end
          end
      end
  end.
(** _processStaffGroupDescriptionTree (humdrumfile.py:11707-11830) for the tree on top; the
    trees are in the order that _sortGroupDescriptionTrees (11684-11700) makes. *)
Definition make_groups (top : descs) : option (list group * list nat) :=
  match top with
  | DNil => Some ([], [])
  | DCons _ _ _ [] _ _ => Some ([], [])
  | DCons s bar own ids k _ => finish s bar own (make_subs k own ids)
  end.

(** Without system decoration (humdrumfile.py:11584-11651); [parts]: for each part the indices
    of its staves. *)
Definition part_group (p : list nat) (rest : descs) : descs :=
  match p with
  | [] | [_] => rest
  | [_; _] => DCons Brace true p p DNil rest
  | _ => DCons Bracket false p p DNil rest
  end.
Definition nats_eqb (a b : list nat) : bool := if list_eq_dec Nat.eq_dec a b then true else false.
Definition default_tree (parts : list (list nat)) : descs :=
  let owned := flat_map (fun p => match p with [i] => [i] | _ => [] end) parts in
  let ids := concat parts in
  let kids := fold_right part_group DNil parts in
  let root := DCons (if length owned =? 1 then NoSym else Bracket) false owned ids kids DNil in
  match kids with
  | DCons s bar o i k DNil => if nats_eqb ids i then DCons s bar o i k DNil else root
  | _ => root
  end.
