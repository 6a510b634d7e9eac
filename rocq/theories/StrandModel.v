(** Strands: converter21/humdrum/humdrumfilestructure.py:731-870.  A strand is a chain of
    tokens from the start of a spine, or of a sub-spine made by a split, to its end. *)
From Verif Require Import PyStr LayoutModel TextModel SpineModel BarModel RhythmModel.

(** What the analysis reads of a file: the text of a token, its successors and predecessors
    ([nextTokens], [previousTokens], of which [nextToken0] and [previousToken0] are the
    first), its sub-track, and a bound on the length of a chain of successors (the number of
    lines; it stands for the termination of the loops). *)
Record sfile := mkSF {
  sf_text : tokref -> str;
  sf_next : tokref -> list tokref;
  sf_prev : tokref -> list tokref;
  sf_sub : tokref -> Z;
  sf_lines : nat
}.
Definition next0 (F : sfile) (t : tokref) : option tokref := hd_error (sf_next F t).
Definition prev0 (F : sfile) (t : tokref) : option tokref := hd_error (sf_prev F t).

(** humdrumtoken.py:2215-2222, 2245-2252 and 714-719. *)
Definition is_v (F : sfile) (t : tokref) : bool := str_eqb (sf_text F t) (S_ "*v").
Definition is_end (F : sfile) (t : tokref) : bool := str_eqb (sf_text F t) (S_ "*-").
Definition left_is_v (F : sfile) (t : tokref) : bool :=
  match snd t with O => false | S k => is_v F (fst t, k) end.

(** A strand: first and last token ([TokenPair], humdrumfilebase.py:37-75). *)
Definition strand := (tokref * option tokref)%type.

(** [analyzeSpineStrands] (humdrumfilestructure.py:828-866) from the token [t] on: the end of
    this strand, and the strands that branch off, in the order in which they are appended. *)
Fixpoint walk (F : sfile) (fuel : nat) (t : tokref) : option tokref * list strand :=
  match fuel with
  | O => (None, [])
  | S f =>
      let go_on := match next0 F t with Some u => walk F f u | None => (None, []) end in
      if is_v F t && (1 <? sf_sub F t)%Z then
        if left_is_v F t then (Some t, []) else go_on
      else if is_end F t then (Some t, [])
      else
        let branches := flat_map (fun u => let '(l, ks) := walk F f u in (u, l) :: ks) (tl (sf_next F t)) in
        (fst go_on, branches ++ snd go_on)
  end.
Definition analyzeSpineStrands (F : sfile) (start : tokref) : list strand :=
  let '(l, ks) := walk F (S (sf_lines F)) start in (start, l) :: ks.

(** [list.sort] by line and field of the first token (humdrumfilestructure.py:777); stable. *)
Definition first_le (a b : strand) : bool :=
  (fst (fst a) <? fst (fst b)) || ((fst (fst a) =? fst (fst b)) && (snd (fst a) <=? snd (fst b))).
Fixpoint insert_strand (x : strand) (l : list strand) : list strand :=
  match l with
  | [] => [x]
  | y :: r => if first_le x y then x :: l else y :: insert_strand x r
  end.
Definition sort_strands (l : list strand) : list strand := fold_right insert_strand [] l.

(** [analyzeStrands] (humdrumfilestructure.py:765-787), the list [_strand1d].  A spine
    without a start gives a strand without a first token, which cannot be sorted:
    AttributeError ([None]). *)
Fixpoint strand_lists (F : sfile) (starts : list (option tokref)) : option (list (list strand)) :=
  match starts with
  | [] => Some []
  | None :: _ => None
  | Some s :: r => match strand_lists F r with Some ls => Some (sort_strands (analyzeSpineStrands F s) :: ls) | None => None end
  end.
Definition analyzeStrands (F : sfile) (starts : list (option tokref)) : option (list strand) :=
  match strand_lists F starts with Some ls => Some (concat ls) | None => None end.

(** [assignStrandsToTokens] (humdrumfilestructure.py:815-821): [strandIndex] of every token. *)
Fixpoint chain (F : sfile) (fuel : nat) (t : tokref) : list tokref :=
  match fuel with
  | O => []
  | S f => t :: match next0 F t with Some u => chain F f u | None => [] end
  end.
Definition set_all {A} (ts : list tokref) (v : A) (m : tokref -> option A) : tokref -> option A :=
  fun x => if existsb (ref_eqb x) ts then Some v else m x.
Fixpoint assign_from (F : sfile) (i : nat) (l : list strand) (m : tokref -> option nat) : tokref -> option nat :=
  match l with
  | [] => m
  | s :: r => assign_from F (S i) r (set_all (chain F (S (sf_lines F)) (fst s)) i m)
  end.
Definition strandIndex (F : sfile) (l : list strand) : tokref -> option nat := assign_from F 0 l (fun _ => None).

(** [resolveNullTokens] (humdrumfilestructure.py:794-831): the last data token seen, which is
    not forgotten between strands, and the tokens set so far.  [None]: the end of the strand
    was not reached, HumdrumInternalError. *)
Record nstate := mkN { n_data : option tokref; n_res : tokref -> option tokref }.
Definition set_res (t u : tokref) (m : tokref -> option tokref) : tokref -> option tokref :=
  fun x => if ref_eqb x t then Some u else m x.
Definition resolve_token (F : sfile) (t : tokref) (s : nstate) : nstate :=
  if isDataToken (sf_text F t) then
    match n_data s with
    | None => mkN (Some t) (set_res t t (n_res s))
    | Some d => if isNullToken (sf_text F t) then mkN (Some d) (set_res t d (n_res s)) else mkN (Some t) (n_res s)
    end
  else s.
Definition same_token (a b : option tokref) : bool :=
  match a, b with Some x, Some y => ref_eqb x y | None, None => true | _, _ => false end.
Fixpoint resolve_strand (F : sfile) (fuel : nat) (t last : option tokref) (s : nstate) : option nstate :=
  if same_token t last then Some s
  else match fuel, t with
       | S f, Some x => resolve_strand F f (next0 F x) last (resolve_token F x s)
       | _, _ => None
       end.
Fixpoint resolve_strands (F : sfile) (l : list strand) (s : nstate) : option nstate :=
  match l with
  | [] => Some s
  | (f, e) :: r => match resolve_strand F (S (S (sf_lines F))) (Some f) e s with Some s' => resolve_strands F r s' | None => None end
  end.
Definition resolveNullTokens (F : sfile) (l : list strand) : option (tokref -> option tokref) :=
  match resolve_strands F l (mkN None (fun _ => None)) with Some s => Some (n_res s) | None => None end.
(** The property [nullResolution] (humdrumtoken.py:2689-2699). *)
Definition nullResolution (m : tokref -> option tokref) (t : tokref) : tokref := match m t with Some u => u | None => t end.

(** ** Files *)

(** The labels of the spined lines, at their lines. *)
Fixpoint labels_at (lines : list str) (infos : list (list str)) (ln : nat) : list str :=
  match lines with
  | [] => []
  | l :: ls =>
      if isGlobalLine l then match ln with O => [] | S k => labels_at ls infos k end
      else match infos with
           | [] => []
           | x :: r => match ln with O => x | S k => labels_at ls r k end
           end
  end.
(** The sub-track of a token (humdrumline.py:1028-1062, see [analyzeTracks]). *)
Definition sub_of (labels : list str) (i : nat) : Z :=
  match analyzeTracks labels with
  | Some l => match nth_error l i with Some a => subTrack a | None => (-1)%Z end
  | None => (-1)%Z
  end.
Definition text_at (lines : list str) (t : tokref) : str := nth (snd t) (tokens (nth (fst t) lines [])) [].
Definition file_of (lines : list str) (infos : list (list str)) (g : graph) : sfile :=
  mkSF (text_at lines) (nextTokens g) (previousTokens g) (fun t => sub_of (labels_at lines infos (fst t)) (snd t)) (length lines).
(** The strands of a text: [spineStartList] (humdrumfilebase.py:1779-1780) is all track
    starts but the first. *)
Definition strands_of (lines : list str) (infos : list (list str)) (fin : sstate) (g : graph) : option (list strand) :=
  analyzeStrands (file_of lines infos g) (tl (trackStarts (s_tracks fin))).

(** ** Layout comments *)

(** A token to which layout comments above it belong: data, a barline, or an interpretation
    that is neither [*] nor a manipulator (humdrumfilestructure.py:746-753). *)
Definition takes_layout (t : str) : bool :=
  isDataToken t || starts_with (S_ "=") t || (starts_with (S_ "*") t && negb (str_eqb t (S_ "*")) && negb (isManipulatorToken t)).
(** humdrumfilestructure.py:754. *)
Definition is_layout (t : str) : bool := starts_with (S_ "!LO:") t.
(** [addLinkedParameterSet] (humdrumtoken.py:2400-2434) on the list of the token. *)
Fixpoint insert_by_line (c : tokref) (l : list tokref) : list tokref :=
  match l with
  | [] => [c]
  | x :: r => if fst c <? fst x then c :: l else x :: insert_by_line c r
  end.
Definition add_parameters (F : sfile) (c : tokref) (l : list tokref) : list tokref :=
  if contains (S_ ":ignore") (sf_text F c) then l
  else if existsb (ref_eqb c) l then l
  else match l with
       | [] => [c]
       | _ => if fst (last l c) <=? fst c then l ++ [c] else insert_by_line c l
       end.
Definition add_linked (F : sfile) (d c : tokref) (m : tokref -> list tokref) : tokref -> list tokref :=
  fun x => if ref_eqb x d then add_parameters F c (m x) else m x.
(** [processLocalParametersForStrand] (humdrumfilestructure.py:738-762): from the end of the
    strand back to its start.  [d] is the token that takes the next comment. *)
Fixpoint back (F : sfile) (fuel : nat) (start t : tokref) (d : option tokref) (m : tokref -> list tokref) : tokref -> list tokref :=
  match fuel with
  | O => m
  | S f =>
      let x := sf_text F t in
      let '(d', m') :=
        if takes_layout x then (Some t, m)
        else if is_layout x then (d, match d with Some u => add_linked F u t m | None => m end)
        else (d, m) in
      if ref_eqb t start then m'
      else match prev0 F t with Some u => back F f start u d' m' | None => m' end
  end.
(** [analyzeLocalParameters] (humdrumfilestructure.py:388-392). *)
Definition process_strand (F : sfile) (m : tokref -> list tokref) (s : strand) : tokref -> list tokref :=
  match snd s with Some e => back F (S (sf_lines F)) (fst s) e None m | None => m end.
Definition linked_parameters (F : sfile) (l : list strand) : tokref -> list tokref := fold_left (process_strand F) l (fun _ => []).
