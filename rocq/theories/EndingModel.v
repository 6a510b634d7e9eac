(** Model of section labels and repeat endings on import of a Humdrum file
    (humdrum/humdrumfile.py). *)
From Verif Require Import PyStr LayoutModel TextModel SpineModel ImportModel.

(** A section label: the first token of an interpretation line that starts with
    [*>] and is no expansion list (humdrumfile.py:12315-12326). *)
Definition section_label (l : str) : option str :=
  if isInterpretationLine l then
    match tokens l with
    | t :: _ => if starts_with (S_ "*>") t && negb (char_in "["%char t) then Some t else None
    | [] => None
    end
  else None.
(** [text[-1].isdigit()]; digits outside ASCII are not modelled. *)
Definition ends_in_digit (t : str) : bool := match rev t with c :: _ => is_digit c | [] => false end.

(** The entries of [_sectionLabels] and [_numberlessLabels] of one line, and
    whether the line is data. *)
Record entry := mkE { e_data : bool; e_sec : option str; e_nn : option str }.
(** The loops that work backward until a line of data (12333-12336, 12344-12347):
    an entry is changed if neither its line nor one after it is data. *)
Fixpoint back_copy (f : entry -> entry) (l : list entry) : list entry :=
  match l with
  | [] => []
  | e :: l' => (if forallb (fun x => negb (e_data x)) l then f e else e) :: back_copy f l'
  end.
Definition set_sec (t : str) (e : entry) : entry := mkE (e_data e) (Some t) (e_nn e).
Definition set_nn (t : str) (e : entry) : entry := mkE (e_data e) (e_sec e) (Some t).

(** The loop over the lines (12311-12347); [done] are the entries of the lines
    before. *)
Fixpoint label_loop (lines : list str) (sec nn : option str) (done : list entry) : list entry :=
  match lines with
  | [] => done
  | l :: ls =>
      let e := mkE (isDataLine l) sec nn in
      match section_label l with
      | None => label_loop ls sec nn (done ++ [e])
      | Some t =>
          let done1 := back_copy (set_sec t) done ++ [set_sec t e] in
          if ends_in_digit t then label_loop ls (Some t) nn done1
          else label_loop ls (Some t) (Some t) (back_copy (set_nn t) (back_copy (set_sec t) done) ++ [set_nn t (set_sec t e)])
      end
  end.
(** The last loop (12349-12355). *)
Fixpoint smear (l : list (option str)) : list (option str) :=
  match l with
  | [] => []
  | x :: l' =>
      let r := smear l' in
      match x, r with
      | None, Some t :: _ => Some t :: r
      | _, _ => x :: r
      end
  end.
(** [_prepareSections] (12304-12355). *)
Definition sectionLabels (lines : list str) : list (option str) := map e_sec (label_loop lines None None []).
Definition numberlessLabels (lines : list str) : list (option str) := smear (map e_nn (label_loop lines None None [])).

(** The digits at the end of a string. *)
Definition final_digits (s : str) : str := rev (fst (span is_digit (rev s))).
(** Whether a measure that starts on a line is in a repeat ending, and in which
    (humdrumfile.py:1091-1122). *)
Definition endingNumber (lines : list str) (start : nat) : option N :=
  match nth start (sectionLabels lines) None with
  | None => None
  | Some t =>
      let currentSection := if starts_with (S_ "*>") t then skipn 2 t else t in
      if ends_in_digit currentSection then
        match nth start (numberlessLabels lines) None with
        | None => None
        | Some b =>
            if match b with [] => false | _ => true end && starts_with b t
            then Some (parse_N (final_digits currentSection)) else None
        end
      else None
  end.

(** [_endingNum], whether [_currentEndingPerStaff] is filled, and the repeat
    brackets made so far with their measures.  Every staff gets the same
    brackets; one staff is modelled. *)
Record bstate := mkB { b_num : N; b_open : bool; b_brackets : list (N * list nat) }.
Fixpoint add_to_last (k : nat) (l : list (N * list nat)) : list (N * list nat) :=
  match l with
  | [] => []
  | [(n, ks)] => [(n, ks ++ [k])]
  | x :: l' => x :: add_to_last k l'
  end.
(** humdrumfile.py:1130-1152, 1165-1167.  [None]: IndexError. *)
Definition bracket_step (k : nat) (e : option N) (st : bstate) : option bstate :=
  match e with
  | Some n =>
      if negb (b_num st =? n)%N then Some (mkB n true (b_brackets st ++ [(n, [k])]))
      else if b_open st then Some (mkB n true (add_to_last k (b_brackets st))) else None
  | None => Some (mkB 0 false (b_brackets st))
  end.
Fixpoint bracket_loop (k : nat) (es : list (option N)) (st : bstate) : option bstate :=
  match es with
  | [] => Some st
  | e :: es' =>
      match bracket_step k e st with None => None | Some st' => bracket_loop (S k) es' st' end
  end.
(** The repeat brackets of a file (760-792 with 1074-1167): number and measures.
    [None]: the import raises, or the file does not parse. *)
Definition repeatBrackets (lines : list str) : option (list (N * list nat)) :=
  match importedMeasures lines with
  | None => None
  | Some ms =>
      option_map b_brackets (bracket_loop 0 (map (fun m => endingNumber lines (fst m)) ms) (mkB 0 false []))
  end.
