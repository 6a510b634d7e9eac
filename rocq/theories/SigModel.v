(** Model of the import of key and time signatures (humdrum/humdrumfile.py). *)
From Verif Require Import PyStr LayoutModel TextModel SpineModel ImportModel ContentModel VoiceModel.
From Verif Require BarModel.
From Coq Require Import QArith.
Local Close Scope Q_scope.

(** [isTimeSignature] is in ContentModel, [isKeySignature] in BarModel. *)
Definition isKeySig (t : str) : bool := BarModel.isKeySignature t.
(** [isKeyDesignation] (humdrumtoken.py:52, 1437-1439). *)
Fixpoint skip_accidentals (s : str) : str :=
  match s with
  | c :: s' => if char_in c (S_ "#-") then skip_accidentals s' else s
  | [] => []
  end.
Definition isKeyDesignation (t : str) : bool :=
  match t with
  | "*"%char :: c :: s =>
      char_in c (S_ "abcdefgABCDEFG") && match skip_accidentals s with ":"%char :: _ => true | _ => false end
  | _ => false
  end.
(** [isMensurationSymbol] (humdrumtoken.py:1545-1546). *)
Definition isMensurationSymbol (t : str) : bool :=
  starts_with (S_ "*met(") t && match rev t with ")"%char :: _ => true | _ => false end.

(** The tokens kept for one staff. *)
Record sigs := mkG { g_time : option itok; g_met : option itok; g_key : option itok; g_mode : option itok }.
Definition no_sigs : sigs := mkG None None None None.

(** One token of the staff (humdrumfile.py:1388-1411). *)
Definition change_tok (g : sigs) (t : itok) : sigs :=
  let g1 := if isTimeSignature (i_text t) then mkG (Some t) (g_met g) (g_key g) (g_mode g)
            else if isKeySig (i_text t) then mkG (g_time g) (g_met g) (Some t) (g_mode g)
            else if isKeyDesignation (i_text t) then mkG (g_time g) (g_met g) (g_key g) (Some t)
            else g in
  match g_time g1 with
  | Some _ => if isMensurationSymbol (i_text t) then mkG (g_time g1) (Some t) (g_key g1) (g_mode g1) else g1
  | None => g1
  end.
(** The loops over lines and tokens (humdrumfile.py:1376-1411), for all staves. *)
Definition change_line_tok (staves : list nat) (gs : list sigs) (t : itok) : list sigs :=
  match staffIndex staves (i_track t) with
  | None => gs
  | Some s => upd_nth s (change_tok (nth s gs no_sigs) t) gs
  end.
Definition changes (staves : list nat) (lines : list iline) : list sigs :=
  fold_left (change_line_tok staves)
            (flat_map (fun l => if isInterpretationLine (il_text l) then il_toks l else []) lines)
            (map (fun _ => no_sigs) staves).

(** What is put into a measure of a staff: the offset and the tokens that are
    converted. *)
Inductive insertion :=
| TimeSig (off : Q) (t : itok) (met : option itok)
| KeySig (off : Q) (t : itok) (mode : option itok).
(** Whether M21Convert.m21KeySignature gives a signature (m21convert.py:676-740):
    it does if there is a key designation. *)
Definition key_readable (k : itok) (mode : option itok) : bool :=
  match mode with
  | Some _ => true
  | None => match BarModel.m21KeySignature (i_text k) with Some _ => true | None => false end
  end.
(** humdrumfile.py:1413-1439. *)
Definition inserted (g : sigs) (at_start : bool) : list insertion :=
  match g_time g with
  | Some t => [TimeSig (if at_start then 0%Q else i_bar t) t (g_met g)]
  | None => []
  end ++
  match g_key g with
  | Some k => if key_readable k (g_mode g) then [KeySig (if at_start then 0%Q else i_bar k) k (g_mode g)] else []
  | None => []
  end.

(** The tokens of a staff above the first line of data (_createPart, 11901-11989):
    those of its first sub-spine.  The links that the code follows are modelled
    by the position on the line. *)
Fixpoint first_toks (tr : nat) (lines : list iline) : list itok :=
  match lines with
  | [] => []
  | l :: ls =>
      if isDataLine (il_text l) then []
      else (if hasSpines (il_text l)
            then match filter (fun t => i_track t =? tr) (il_toks l) with t :: _ => [t] | [] => [] end else [])
           ++ first_toks tr ls
  end.
Definition first_tok (g : sigs) (t : itok) : sigs :=
  if isKeySig (i_text t) then mkG (g_time g) (g_met g) (Some t) (g_mode g)
  else if isKeyDesignation (i_text t) then mkG (g_time g) (g_met g) (g_key g) (Some t)
  else if isMensurationSymbol (i_text t) then mkG (g_time g) (Some t) (g_key g) (g_mode g)
  else if isTimeSignature (i_text t) then mkG (Some t) (g_met g) (g_key g) (g_mode g)
  else g.

(** The signatures of a measure of staff [s] (humdrumfile.py:1171-1183,
    1197-1202): [file] is the file, [start] is the [durationFromStart] of the first
    line of the measure, [lines] are its lines.  The clef is left out. *)
Definition measureSigs (staves : list nat) (file : list iline) (start : Q) (lines : list iline) (s : nat) : list insertion :=
  if Qle_bool start 0 then
    inserted (fold_left first_tok (first_toks (nth s staves 0) file) no_sigs) true
  else inserted (nth s (changes staves lines) no_sigs) false.
