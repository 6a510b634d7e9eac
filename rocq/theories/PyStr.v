(** Python string primitives used by the modelled code.

    A Python [str] is modelled as a list of 8-bit characters.  Simplification:
    characters outside Latin-1 are not represented, and the character classes
    ([\d], [upper], [lower], [strip]) are the ASCII ones. *)
From Coq Require Export Ascii String Arith NArith ZArith Bool Lia List.
From Coq Require Export ZifyBool ZifyNat ZifyN.
Export ListNotations.

Definition str := list ascii.

Definition S_ (s : string) : str := list_ascii_of_string s.
Arguments S_ s%string_scope.

Declare Scope pystr_scope.
Delimit Scope pystr_scope with py.
Bind Scope pystr_scope with str.

Definition ascii_of (s : string) : ascii :=
  match s with String c _ => c | EmptyString => "000"%char end.

(** Python [==] on strings. *)
Fixpoint str_eqb (a b : str) : bool :=
  match a, b with
  | [], [] => true
  | x :: a', y :: b' => Ascii.eqb x y && str_eqb a' b'
  | _, _ => false
  end.

Definition char_in (c : ascii) (s : str) : bool := existsb (Ascii.eqb c) s.

(** [s.count(c)] for a one-character [c]. *)
Definition count_char (c : ascii) (s : str) : nat :=
  length (filter (Ascii.eqb c) s).

(** Python regex [\d] (ASCII digits only). *)
Definition is_digit (c : ascii) : bool :=
  let n := N_of_ascii c in (48 <=? n)%N && (n <=? 57)%N.

Definition is_lower (c : ascii) : bool :=
  let n := N_of_ascii c in (97 <=? n)%N && (n <=? 122)%N.

Definition is_upper (c : ascii) : bool :=
  let n := N_of_ascii c in (65 <=? n)%N && (n <=? 90)%N.

(** [c.upper()], [c.lower()] on ASCII. *)
Definition to_upper (c : ascii) : ascii :=
  if is_lower c then ascii_of_N (N_of_ascii c - 32) else c.
Definition to_lower (c : ascii) : ascii :=
  if is_upper c then ascii_of_N (N_of_ascii c + 32) else c.

(** Longest prefix satisfying [p], and the remainder. *)
Fixpoint span (p : ascii -> bool) (s : str) : str * str :=
  match s with
  | [] => ([], [])
  | c :: s' => if p c then let (a, b) := span p s' in (c :: a, b) else ([], s)
  end.

(** [s.split(sep)] for a one-character separator. *)
Fixpoint split_char (sep : ascii) (s : str) : list str :=
  match s with
  | [] => [[]]
  | c :: s' =>
      if Ascii.eqb c sep then [] :: split_char sep s'
      else match split_char sep s' with
           | [] => [[c]]
           | w :: ws => (c :: w) :: ws
           end
  end.

(** [sep.join(parts)]. *)
Fixpoint join (sep : str) (parts : list str) : str :=
  match parts with
  | [] => []
  | [w] => w
  | w :: ws => w ++ sep ++ join sep ws
  end.

(** [s * n] for a one-character string. *)
Definition rep (c : ascii) (n : nat) : str := repeat c n.

(** [s.startswith(p)]. *)
Fixpoint starts_with (p s : str) : bool :=
  match p, s with
  | [], _ => true
  | x :: p', y :: s' => Ascii.eqb x y && starts_with p' s'
  | _ :: _, [] => false
  end.

(** [s.replace(old, new)] for a nonempty [old]; leftmost, non-overlapping. *)
Fixpoint replace_fuel (fuel : nat) (old new s : str) : str :=
  match fuel with
  | O => s
  | S f =>
      match s with
      | [] => []
      | c :: s' =>
          if starts_with old s then new ++ replace_fuel f old new (skipn (length old) s)
          else c :: replace_fuel f old new s'
      end
  end.
Definition replace (old new s : str) : str := replace_fuel (S (length s)) old new s.

(** [str(n)] for a non-negative integer. *)
Definition digit_char (d : N) : ascii := ascii_of_N (48 + d).
Definition digit_val (c : ascii) : N := (N_of_ascii c - 48)%N.

Fixpoint show_aux (fuel : nat) (n : N) (acc : str) : str :=
  match fuel with
  | O => acc
  | S f =>
      if (n <? 10)%N then digit_char n :: acc
      else show_aux f (n / 10)%N (digit_char (n mod 10)%N :: acc)
  end.
Definition show_N (n : N) : str := show_aux (S (N.size_nat n)) n [].

(** [str(z)] for any integer. *)
Definition show_Z (z : Z) : str :=
  match z with
  | Z0 => show_N 0
  | Zpos p => show_N (Npos p)
  | Zneg p => "-"%char :: show_N (Npos p)
  end.

(** [int(s)] on a string of digits. *)
Definition parse_N (s : str) : N :=
  fold_left (fun acc c => 10 * acc + digit_val c)%N s 0%N.
