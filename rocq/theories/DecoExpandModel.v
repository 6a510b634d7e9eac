(** Numbers of groups and parts in the system decoration become staves (humdrumfile.py). *)
From Coq Require Import List Arith NArith Bool Ascii String.
From Verif Require Import PyStr DecoModel.
Import ListNotations.
Local Open Scope list_scope.

(** humdrumfile.py:11315-11319, 11328-11332: staves with commas between. *)
Fixpoint staves_list (l : list N) : str :=
  match l with
  | [] => []
  | [n] => staff_text n
  | n :: l' => staff_text n ++ ","%char :: staves_list l'
  end.
(** humdrumfile.py:11313-11320, 11326-11333: one re.sub for each number, in the order of the
    dictionary.  The pattern has no special characters, the replacement no backslash, so that
    re.sub is a replacement of text. *)
Definition expand_all (letter : ascii) (table : list (N * list N)) (d : str) : str :=
  fold_left (fun d e => replace (letter :: show_N (fst e)) (staves_list (snd e)) d) table d.
(** re.sub of the letter and all digits after it (at least one), humdrumfile.py:11336-11337;
    [inside]: after the letter. *)
Fixpoint drop_refs (letter : ascii) (inside : bool) (s : str) : str :=
  match s with
  | [] => []
  | c :: r =>
      if inside && is_digit c then drop_refs letter true r
      else if Ascii.eqb c letter && match r with n :: _ => is_digit n | [] => false end then drop_refs letter true r
      else c :: drop_refs letter false r
  end.
(** humdrumfile.py:11309-11337; [groups] and [parts] are groupToStaves and partToStaves.
    Instrument classes (11300-11307) are left out. *)
Definition expand_deco (groups parts : list (N * list N)) (d : str) : str :=
  drop_refs "g" false (drop_refs "p" false (expand_all "p" parts (expand_all "g" groups d))).
