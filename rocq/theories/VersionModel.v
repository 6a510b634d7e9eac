(** Whether the version of music21 is recent enough (m21utilities.py). *)
From Coq Require Import List Arith NArith ZArith Bool Ascii String.
From Verif Require Import PyStr.
Import ListNotations.
Local Open Scope list_scope.

(** Elements of m21.VERSION and of the version that is needed. *)
Inductive el := Num (z : Z) | Str (s : str).

(** Comparison of Python strings, by code points. *)
Fixpoint str_cmp (a b : str) : comparison :=
  match a, b with
  | [], [] => Eq
  | [], _ => Lt
  | _, [] => Gt
  | x :: a', y :: b' => match (N_of_ascii x ?= N_of_ascii y)%N with Eq => str_cmp a' b' | c => c end
  end.

Section Version.
(** int() of a string; None: ValueError. *)
Context (int_of : str -> option Z).

(** int(m21.VERSION[i]) against neededVersion[i] for i < 3; None: an exception (ValueError, or
    TypeError as an int is compared with a string). *)
Definition cmp_int (x y : el) : option comparison :=
  match y with
  | Str _ => None
  | Num b => match x with
             | Num a => Some (a ?= b)%Z
             | Str s => match int_of s with Some a => Some (a ?= b)%Z | None => None end
             end
  end.
(** m21.VERSION[3] against neededVersion[3]. *)
Definition cmp_last (x y : el) : option comparison :=
  match x, y with
  | Num a, Num b => Some (a ?= b)%Z
  | Str s, Str t => Some (str_cmp s t)
  | _, _ => None
  end.
(** The comparison of elements from [i] on (m21utilities.py:1684-1729); exceptions give False
    (1730-1731). *)
Fixpoint go (i : nat) (v w : list el) : bool :=
  match v, w with
  | x :: v', y :: w' =>
      match (if i <? 3 then cmp_int x y else cmp_last x y) with
      | None => false
      | Some Lt => false
      | Some Gt => true
      | Some Eq =>
          if i =? 3 then true
          else match v', w' with
               | [], _ | _, [] => length w' <=? length v'
               | _, _ => go (S i) v' w'
               end
      end
  | _, _ => false
  end.
(** m21VersionIsAtLeast (m21utilities.py:1678-1733); None: NoMusic21VersionError. *)
Definition at_least (version needed : list el) : option bool :=
  match version with [] => None | _ => Some (go 0 version needed) end.
End Version.
