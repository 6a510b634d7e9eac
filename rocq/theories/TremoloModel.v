(** Tremolo expansion: converter21/humdrum/humdrumtools.py ([ToolTremolo]) and
    [insertNullDataLine] of converter21/humdrum/humdrumfilebase.py.

    A file is seen through one spine without splits and merges: one cell for each
    spined line.  The cell that follows in [nextToken(0)] is then the next one. *)
From Verif Require Import PyStr RecipModel LayoutModel SignifierModel.
From Coq Require Import QArith.
Local Close Scope Q_scope.

(** Whether the line holds data, the time of the line, its duration and the text of the token. *)
Record cell := mkCell { c_data : bool; c_time : Q; c_dur : Q; c_text : str }.

Definition qlt (a b : Q) : bool := match Qcompare a b with Lt => true | _ => false end.

(** ** Null lines *)

Inductive place := Present | After (i : nat) | Nowhere.
(** humdrumfilebase.py:1362-1377, the search of [insertNullDataLine]. *)
Fixpoint null_place (ts : Q) (i : nat) (before : option nat) (l : list cell) : place :=
  match l with
  | [] => match before with Some b => After b | None => Nowhere end
  | c :: r =>
      if negb (c_data c) then null_place ts (S i) before r
      else if Qeq_bool (c_time c) ts then Present
      else if qlt ts (c_time c) then match before with Some b => After b | None => Nowhere end
      else null_place ts (S i) (Some i) r
  end.
(** humdrumfilebase.py:1391-1410. *)
Fixpoint insert_after (ts : Q) (i : nat) (l : list cell) : list cell :=
  match l with
  | [] => []
  | c :: r =>
      match i with
      | O => mkCell (c_data c) (c_time c) (ts - c_time c)%Q (c_text c)
               :: mkCell true ts (c_dur c - (ts - c_time c))%Q (S_ ".") :: r
      | S k => c :: insert_after ts k r
      end
  end.
(** humdrumfilebase.py:1355-1410, [insertNullDataLine]. *)
Definition insertNullDataLine (ts : Q) (l : list cell) : list cell :=
  match null_place ts 0 None l with
  | After i => insert_after ts i l
  | _ => l
  end.

(** ** Texts *)

Definition at_sign : ascii := "@"%char.
(** [re.search(r'@(\d+)@', text)]. *)
Definition markup_here (s : str) : option N :=
  match s with
  | c :: r => if Ascii.eqb c at_sign then
                match span is_digit r with
                | (d :: ds, e :: _) => if Ascii.eqb e at_sign then Some (parse_N (d :: ds)) else None
                | _ => None
                end
              else None
  | [] => None
  end.
Definition find_markup (s : str) : option N := search markup_here s.
(** [re.sub(f'@{value}@', '', text)]. *)
Definition markup (v : N) : str := S_ "@" ++ show_N v ++ S_ "@".
Definition remove_markup (v : N) (s : str) : str := remove_all (length s) (markup v) s.

(** [re.sub(r'[LJKk]+', '', text)]. *)
Definition beam_char (c : ascii) : bool := char_in c (S_ "LJKk").
Definition remove_beams (s : str) : str := filter (fun c => negb (beam_char c)) s.

(** [re.sub(r'\d+%?\d*\.*', new, text)].  Where a match begins it is as long as possible. *)
Definition is_dot (c : ascii) : bool := Ascii.eqb c "."%char.
Definition skip_percent (s : str) : str :=
  match s with c :: r => if Ascii.eqb c "%"%char then r else s | [] => [] end.
Definition after_rhythm (s : str) : str :=
  snd (span is_dot (snd (span is_digit (skip_percent (snd (span is_digit s)))))).
Fixpoint set_rhythm (fuel : nat) (new s : str) : str :=
  match fuel with
  | O => s
  | S f => match s with
           | [] => []
           | c :: r => if is_digit c then new ++ set_rhythm f new (after_rhythm s) else c :: set_rhythm f new r
           end
  end.

(** [re.sub(r'[set]+[<>]?', '', text)] and, with [must], [re.sub(r'[set]+[<>]', '', text)]. *)
Definition angle (c : ascii) : bool := char_in c (S_ "<>").
Definition drop_angle (s : str) : str := match s with c :: r => if angle c then r else s | [] => [] end.
Fixpoint remove_run (fuel : nat) (set : ascii -> bool) (must : bool) (s : str) : str :=
  match fuel with
  | O => s
  | S f => match s with
           | [] => []
           | c :: r =>
               if set c then
                 let '(run, rest) := span set s in
                 let ends := match rest with x :: _ => angle x | [] => false end in
                 if must && negb ends then run ++ remove_run f set must rest
                 else remove_run f set must (drop_angle rest)
               else c :: remove_run f set must r
           end
  end.
Definition remove_runs (set : ascii -> bool) (must : bool) (s : str) : str := remove_run (length s) set must s.

Definition tie_mid (c : ascii) : bool := Ascii.eqb c "_"%char.
Definition tie_any (c : ascii) : bool := char_in c (S_ "[_]").
Definition slur_open (c : ascii) : bool := Ascii.eqb c "("%char.

(** humdrumtools.py:269: [int(math.log(value, 2)) - 2], for values from 8 on. *)
Definition beam_count (v : N) : nat := N.to_nat (N.log2 v) - 2.

(** The texts of the first note, of the notes between and of the last note. *)
Record texts := mkTexts { t_initial : str; t_base : str; t_terminal : str }.
(** humdrumtools.py:269-307.  [addBeam] is decided by the caller. *)
Definition tremolo_texts (v : N) (addBeam : bool) (text : str) : texts :=
  let base0 := remove_markup v text in
  let hasStart := char_in "L"%char base0 || addBeam in
  let hasStop := char_in "J"%char base0 || addBeam in
  let base1 := remove_beams base0 in
  let base := set_rhythm (length base1) (show_N v) base1 in
  let initial := if hasStart then base ++ rep "L"%char (beam_count v) else base in
  let terminal := if hasStop then base ++ rep "J"%char (beam_count v) else base in
  mkTexts (remove_runs tie_mid false initial) (remove_runs tie_any false base)
    (remove_runs slur_open true (remove_runs tie_any false terminal)).

(** ** Expansion *)

Definition set_text (t : str) (c : cell) : cell := mkCell (c_data c) (c_time c) (c_dur c) t.

(** humdrumtools.py:313-357, the loop of [expandTremolo]: [counter] notes are written,
    the next belongs to [ts]. *)
Fixpoint fill (n : nat) (inc : Q) (text : nat -> str) (ts : Q) (counter : nat) (l : list cell) : list cell :=
  match l with
  | [] => []
  | c :: r =>
      if negb (c_data c) then c :: fill n inc text ts counter r
      else if Qeq_bool (c_dur c) 0 then c :: fill n inc text ts counter r
      else if qlt (c_time c) ts then c :: fill n inc text ts counter r
      else if qlt ts (c_time c) then c :: r
      else
        let counter' := S counter in
        set_text (text counter') c ::
          (if Nat.leb n counter' then r else fill n inc text (ts + inc)%Q counter' r)
  end.

(** The number of notes: [(duration * value) / 4], if it is an integer. *)
Definition note_count (d : Q) (v : N) : option nat :=
  let q := Qred (d * inject_Z (Z.of_N v) / 4)%Q in
  match Qden q with xH => Some (Z.to_nat (Qnum q)) | _ => None end.
Definition increment (v : N) : Q := (4 / inject_Z (Z.of_N v))%Q.
Definition duration_of (text : str) : option Q :=
  match recip_eval text 4 with Rhythm q => Some q | NoRhythm => Some 0%Q | RhythmError => None end.

(** humdrumtools.py:232-359, [expandTremolo] of the cell [c] followed by [l].
    [None]: an exception. *)
Definition expandTremolo (c : cell) (l : list cell) : option (cell * list cell) :=
  match find_markup (c_text c) with
  | None => Some (c, l)
  | Some v =>
      match duration_of (c_text c) with
      | None => None
      | Some d =>
          match note_count d v with
          | None => Some (c, l)
          | Some n =>
              if (v <? 8)%N then Some (c, l)
              else
                let t := tremolo_texts v (qlt (1 # 2) d) (c_text c) in
                let inc := increment v in
                Some (set_text (t_initial t) c,
                      fill n inc (fun k => if Nat.eqb k n then t_terminal t else t_base t) (c_time c + inc)%Q 1 l)
          end
      end
  end.

(** humdrumtools.py:56-87: the null lines of the marked note in cell [i]. *)
Definition insert_lines (start inc : Q) (n : nat) (l : list cell) : list cell :=
  fold_left (fun l k => insertNullDataLine (start + inc * inject_Z (Z.of_nat k))%Q l) (seq 1 (n - 1)) l.
Definition make_room (c : cell) (l : list cell) : option (list cell) :=
  match find_markup (c_text c) with
  | None => Some l
  | Some v =>
      match duration_of (c_text c) with
      | None => None
      | Some d => match note_count d v with
                  | None => Some l
                  | Some n => Some (insert_lines (c_time c) (increment v) n l)
                  end
      end
  end.

(** humdrumtools.py:42-89, [processFile] for the only tremolo note of a file, which
    stands in cell [i] and carries no fingered tremolo. *)
Definition processFile (i : nat) (l : list cell) : option (list cell) :=
  match nth_error l i with
  | None => Some l
  | Some c =>
      match make_room c l with
      | None => None
      | Some l1 =>
          match skipn i l1 with
          | c1 :: r => match expandTremolo c1 r with
                       | Some (c2, r2) => Some (firstn i l1 ++ c2 :: r2)
                       | None => None
                       end
          | [] => Some l1
          end
      end
  end.
