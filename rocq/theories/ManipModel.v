(** The lines of spine manipulators between two lines of the exported file:
    converter21/humdrum/humgrid.py:1363-2004.

    A line is given staff by staff in the order in which it is written, the last part first
    and in a part the last staff first.  Of the two lines around the manipulators only the
    numbers of voices matter. *)
From Verif Require Import PyStr.

Notation star := (S_ "*") (only parsing).
Notation split_tok := (S_ "*^") (only parsing).
Notation merge_tok := (S_ "*v") (only parsing).

(** A staff: its part, the number of columns written behind its voices (ids and verses, and
    behind the last staff of a part its dynamics, figured bass and harmony), and the voices
    of the slice before and of the slice after. *)
Record pair := mkPair { pr_part : nat; pr_sides : nat; pr_before : nat; pr_after : nat }.
(** A staff of a line of manipulators, with the texts of its voices.  Simplification: voices
    are never missing here. *)
Record mstaff := MS { ms_part : nat; ms_sides : nat; ms_voices : list str }.

Definition one_up (n : nat) : nat := Nat.max n 1.

(** ** One line of manipulators *)

(** humgrid.py:1454-1517, the tokens of one staff. *)
Definition count_token (n : nat) : str := split_tok ++ show_N (N.of_nat n).
Definition manip_tokens (v1 v2 : nat) : list str :=
  if v1 =? v2 then [star]
  else if v1 <? v2 then
    let grow := v2 - v1 in
    if v2 =? 2 * v1 then repeat split_tok v1
    else if (0 <? v1) && (2 * v1 <? grow) then
      let extra := v2 - (v1 - 1) * 2 in
      repeat split_tok (v1 - 1) ++ [if 2 <? extra then count_token extra else split_tok]
    else repeat star (v1 - grow) ++ [if 1 <? grow then count_token (grow + 1) else split_tok]
  else
    let shrink := v1 - v2 + 1 in
    repeat star (v1 - shrink) ++ repeat merge_tok shrink.
(** humgrid.py:1389-1519, [manipulatorCheckTwoSlices] for two spined slices with the same
    parts and staves; [None]: nothing to do. *)
Definition manipulatorCheckTwoSlices (l : list pair) : option (list mstaff) :=
  if forallb (fun x => one_up (pr_before x) =? one_up (pr_after x)) l then None
  else Some (map (fun x => MS (pr_part x) (pr_sides x) (manip_tokens (one_up (pr_before x)) (one_up (pr_after x)))) l).

(** humgrid.py:1575-1608, [matchVoices] with the slice before. *)
Definition matchVoices (l : list pair) (m : list mstaff) : list mstaff :=
  map (fun z => MS (ms_part (snd z)) (ms_sides (snd z))
                  (ms_voices (snd z) ++ repeat star (pr_before (fst z) - length (ms_voices (snd z))))) (combine l m).

(** ** Splits into more than two *)

(** The token is [*^] with a digit behind; its number. *)
Definition counted_split (t : str) : bool := starts_with split_tok t && match nth_error t 2 with Some c => is_digit c | None => false end.
Definition split_count (t : str) : N := parse_N (fst (span is_digit (skipn 2 t))).

(** humgrid.py:1706-1760, [adjustExpansionsInStaff]: [n] rounds; gives the staff of the new
    line and the staff of the old one.  After a split the next round looks at the token just
    put in, not at the next one of the line. *)
Fixpoint adjust_staff (n : nat) (l : list str) : list str * list str :=
  match n, l with
  | O, _ => ([], l)
  | _, [] => ([], [])
  | S n', t :: r =>
      if starts_with split_tok t then
        let put := if counted_split t then (if (split_count t <=? 3)%N then split_tok else split_tok ++ show_N (split_count t - 1)) else star in
        let '(new, cur) := adjust_staff n' (put :: r) in (split_tok :: new, star :: cur)
      else let '(new, cur) := adjust_staff n' r in (star :: new, t :: cur)
  end.
(** humgrid.py:1664-1697, [checkManipulatorExpand]: the new line and the old one. *)
Definition expand (l : list mstaff) : option (list mstaff * list mstaff) :=
  if existsb (fun x => existsb counted_split (ms_voices x)) l then
    Some (map (fun x => MS (ms_part x) (ms_sides x) (fst (adjust_staff (length (ms_voices x)) (ms_voices x)))) l,
          map (fun x => MS (ms_part x) (ms_sides x) (snd (adjust_staff (length (ms_voices x)) (ms_voices x)))) l)
  else None.

(** ** Merges in neighbouring staves *)

(** The first two neighbours for which [f] holds. *)
Fixpoint find_pair {A} (f : A -> bool) (l : list A) : option (list A * A * A * list A) :=
  match l with
  | x :: t =>
      match t with
      | y :: r => if f x && f y then Some ([], x, y, r)
                  else match find_pair f t with Some (pre, a, b, post) => Some (x :: pre, a, b, post) | None => None end
      | [] => None
      end
  | [] => None
  end.
Definition is_merge (t : str) : bool := str_eqb t merge_tok.
Definition ends_merging (x : mstaff) : bool := is_merge (last (ms_voices x) []).

(** humgrid.py:1855-1908, [transferMerges]: what stays of the last staff; all but the first
    merge become None, and as many voices as there are Nones are cut off at the end. *)
Fixpoint mark_merges (seen : bool) (l : list str) : list (option str) :=
  match l with
  | [] => []
  | t :: r => if is_merge t then (if seen then None else Some star) :: mark_merges true r else Some t :: mark_merges seen r
  end.
Definition is_none {A} (o : option A) : bool := match o with None => true | Some _ => false end.
Definition chopped (l : list (option str)) : list str :=
  map (fun o => match o with Some t => t | None => star end) (firstn (length l - length (filter is_none l)) l).
Definition merged_staff (l : list str) : list str := chopped (mark_merges false l).

(** humgrid.py:1933-1945: how many voices the staff has after its manipulators, splits not
    counted. *)
Definition left_over (l : list str) : nat := length l - (length (filter is_merge l) - 1).
(** humgrid.py:1947-1955 and 1974-1982: missing voices of the new line. *)
Definition fill_up (moved : bool) (new old : list str) : list str :=
  let new' := if moved then new ++ repeat star (length old - length new) else new in
  match new' with [] => repeat star (length old) | _ => new' end.

(** humgrid.py:1772-1841, [checkManipulatorContract] with [transferMerges] (1855-1908),
    [transferOtherParts] (1916-1957) and [adjustVoices] (1974-1982): the new line and the old
    one. *)
Definition contract (l : list mstaff) : option (list mstaff * list mstaff) :=
  match find_pair ends_merging l with
  | None => None
  | Some (pre, a, b, post) =>
      let p := ms_part b in
      let moved := 0 <? p in
      let goes x := ms_part x <? p in
      let blank x := MS (ms_part x) (ms_sides x) (fill_up moved [] (ms_voices x)) in
      let a_old := merged_staff (ms_voices a) in
      let a_new := map (fun t => if is_merge t then t else star) (ms_voices a) in
      let old_of x := if goes x then MS (ms_part x) (ms_sides x) (repeat star (left_over (ms_voices x))) else x in
      let new_of x := if goes x then MS (ms_part x) (ms_sides x) (fill_up moved (ms_voices x) (ms_voices (old_of x))) else blank x in
      Some (map blank pre
              ++ MS (ms_part a) (ms_sides a) (fill_up moved a_new a_old)
              :: MS (ms_part b) (ms_sides b) (fill_up moved (repeat star (length (ms_voices b))) (ms_voices b))
              :: map new_of post,
            pre ++ MS (ms_part a) (ms_sides a) a_old :: b :: map old_of post)
  end.

(** humgrid.py:1635-1656, [performSimpleExpansion]: a voice for every split of the line before.
    Simplification: a missing voice there would make the loop run for ever. *)
Definition insert_at {A} (k : nat) (x : A) (l : list A) : list A := firstn k l ++ x :: skipn k l.
Fixpoint open_splits (prev : list str) (k : nat) (cur : list str) : list str :=
  match prev with
  | [] => cur
  | t :: r => if str_eqb t split_tok then open_splits r (2 + k) (insert_at (k + 1) star cur) else open_splits r (1 + k) cur
  end.
Definition performSimpleExpansion (prev cur : list mstaff) : list mstaff :=
  map (fun z => MS (ms_part (snd z)) (ms_sides (snd z)) (open_splits (ms_voices (fst z)) 0 (ms_voices (snd z)))) (combine prev cur).

(** ** All of it *)

(** The loops of humgrid.py:1615-1633, [cleanManipulator]: new lines, and what is left of the
    line.  [fuel] bounds the rounds. *)
Fixpoint expansions (fuel : nat) (l : list mstaff) : list (list mstaff) * list mstaff :=
  match fuel with
  | O => ([], l)
  | S f => match expand l with
           | None => ([], l)
           | Some (new, l') => let '(news, fin) := expansions f l' in (new :: news, fin)
           end
  end.
Fixpoint contractions (fuel : nat) (opening : bool) (l : list mstaff) : list (list mstaff) * list mstaff :=
  match fuel with
  | O => ([], l)
  | S f => match contract l with
           | None => ([], l)
           | Some (new, l') =>
               let '(news, fin) := contractions f false (if opening then performSimpleExpansion new l' else l') in (new :: news, fin)
           end
  end.
(** Enough rounds: every round of the first loop adds a voice and no token asks for more voices
    than its number; every round of the second loop leaves a staff less that merges. *)
Definition token_voices (t : str) : nat := if counted_split t then N.to_nat (split_count t) else 2.
Definition voices_wanted (l : list mstaff) : nat := list_sum (map (fun x => list_sum (map token_voices (ms_voices x))) l).
Definition cleanManipulator (l : list mstaff) : list (list mstaff) * list mstaff :=
  let '(news, l1) := expansions (S (voices_wanted l)) l in
  let '(news2, l2) := contractions (S (length l)) (match news with [] => false | _ => true end) l1 in
  (news ++ news2, l2).
(** humgrid.py:1540-1572, [cleanupManipulators] from one line of manipulators on: the new lines
    go before it, and all of them but the first are looked at again. *)
Fixpoint cleanup (fuel : nat) (work : list (list mstaff)) : list (list mstaff) :=
  match fuel, work with
  | _, [] => []
  | O, _ => work
  | S f, l :: r =>
      match cleanManipulator l with
      | ([], l') => l' :: cleanup f r
      | (n :: ns, l') => n :: cleanup f (ns ++ l' :: r)
      end
  end.
(** The lines put between two slices; [fuel] bounds the lines looked at. *)
Definition manipulator_lines (fuel : nat) (l : list pair) : list (list mstaff) :=
  match manipulatorCheckTwoSlices l with
  | None => []
  | Some m => cleanup fuel [matchVoices l m]
  end.
(** The tokens of such a line (gridslice.py:405-436). *)
Definition line_tokens (m : list mstaff) : list str :=
  flat_map (fun x => (match ms_voices x with [] => [star] | vs => vs end) ++ repeat star (ms_sides x)) m.
