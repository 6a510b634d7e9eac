(** Pairing of slur marks, linked ties, and the ties given to notes. *)
From Coq Require Export String Ascii List NArith ZArith Bool Arith.
From Coq Require Import QArith.
Export ListNotations.
From Verif Require Export PyStr PitchModel BarModel ContentModel.
Local Close Scope Q_scope.
Open Scope list_scope.

(** * Slurs *)
(** A token of the track: its identity (line, position on the line) and its text. *)
Record stok := mkSt { k_id : nat * nat; k_text : str }.

(** converter21/humdrum/convert.py lines 771-793, _getElisionLevelWorker: the number of
    '&' directly before the character with the given index among those equal to [c];
    -1 if there is none.  [seen] is the run of '&' before the current position. *)
Fixpoint elision_scan (c : ascii) (target amps : nat) (s : str) : Z :=
  match s with
  | [] => (-1)%Z
  | x :: s' =>
      if Ascii.eqb x c then
        match target with
        | 0 => Z.of_nat amps
        | S t => elision_scan c t (if Ascii.eqb x "&" then S amps else 0) s'
        end
      else elision_scan c target (if Ascii.eqb x "&" then S amps else 0) s'
  end.
Definition elisionLevel (c : ascii) (text : str) (index : nat) : Z := elision_scan c index 0 text.

(** The variables of analyzeSpineSlursOrPhrases (humdrumfilecontent.py lines 521-663) for
    slurs, and the values linking sets on tokens (lines 760-822).  [s_opens]: one list per
    elision level and layer, the last opening first.  [s_pairs]: the calls of
    _linkSlurOrPhraseEndpoints in order.  [s_hang]: the closing marks without an opening, in
    order (whether they are reported as hanging or as starting at an ending is not
    modelled).  Values are indexed by token and number: slurStartCount, slurEndCount,
    slurStartId, slurStartNumber. *)
Record slst := mkS {
  s_opens : nat -> nat -> list stok;
  s_pairs : list (stok * stok);
  s_hang : list stok;
  s_startCount : nat * nat -> Z;
  s_endCount : nat * nat -> Z;
  s_startId : nat * nat -> Z -> option (nat * nat);
  s_startNum : nat * nat -> Z -> Z }.

Definition s0 : slst := mkS (fun _ _ => []) [] [] (fun _ => 0%Z) (fun _ => 0%Z)
  (fun _ _ => None) (fun _ _ => 0%Z).

Definition id_eqb (a b : nat * nat) : bool := Nat.eqb (fst a) (fst b) && Nat.eqb (snd a) (snd b).
Definition upd_id {A} (f : nat * nat -> A) (k : nat * nat) (v : A) : nat * nat -> A :=
  fun x => if id_eqb x k then v else f x.
(** The tag without a number stands for number one (humdrumtoken.py lines 58-61). *)
Definition tag_number (n : Z) : Z := if (1 <? n)%Z then n else 1%Z.
Definition upd_tag {A} (f : nat * nat -> Z -> A) (k : nat * nat) (n : Z) (v : A) : nat * nat -> Z -> A :=
  fun x m => if id_eqb x k && Z.eqb m (tag_number n) then v else f x m.
Definition upd_opens (f : nat -> nat -> list stok) (l t : nat) (v : list stok) : nat -> nat -> list stok :=
  fun l' t' => if Nat.eqb l' l && Nat.eqb t' t then v else f l' t'.

(** lines 760-822, _linkSlurOrPhraseEndpoints (durations, and the values set on the start
    token other than its count, are not modelled). *)
Definition link_slur (st : slst) (a b : stok) : slst :=
  let startCount := (s_startCount st (k_id a) + 1)%Z in
  let openCount := Z.of_nat (count_char "(" (k_text a)) in
  let openEnumeration := (openCount - startCount + 1)%Z in
  let endCount := (s_endCount st (k_id b) + 1)%Z in
  mkS (s_opens st) (s_pairs st ++ [(a, b)]) (s_hang st)
      (upd_id (s_startCount st) (k_id a) startCount)
      (upd_id (s_endCount st) (k_id b) endCount)
      (upd_tag (s_startId st) (k_id b) endCount (Some (k_id a)))
      (upd_tag (s_startNum st) (k_id b) endCount openEnumeration).

Definition set_opens (st : slst) (l t : nat) (v : list stok) : slst :=
  mkS (upd_opens (s_opens st) l t v) (s_pairs st) (s_hang st) (s_startCount st) (s_endCount st)
      (s_startId st) (s_startNum st).
Definition add_hang (st : slst) (b : stok) : slst :=
  mkS (s_opens st) (s_pairs st) (s_hang st ++ [b]) (s_startCount st) (s_endCount st)
      (s_startId st) (s_startNum st).

Definition LEVELS : nat := 4.
Definition LAYERS : nat := 8.

(** line 609-620: the first layer with an opening at this level. *)
Definition other_layer (st : slst) (l : nat) : option nat :=
  find (fun t => match s_opens st l t with [] => false | _ => true end) (seq 0 LAYERS).

(** lines 583-645: one closing mark; [None] is IndexError.  Without a link signifier no
    mark is a linked one (lines 693-694: the pattern has one character). *)
Definition close_mark (layer : nat) (b : stok) (st : option slst) (i : nat) : option slst :=
  match st with
  | None => None
  | Some st =>
      let e := elisionLevel ")" (k_text b) i in
      if (e <? 0)%Z then Some st
      else
        let l := Z.to_nat e in
        if negb ((l <? LEVELS) && (layer <? LAYERS)) then None
        else match s_opens st l layer with
             | a :: rest => Some (set_opens (link_slur st a b) l layer rest)
             | [] =>
                 match other_layer st l with
                 | Some t =>
                     match s_opens st l t with
                     | a :: rest => Some (set_opens (link_slur st a b) l t rest)
                     | [] => Some st
                     end
                 | None => Some (add_hang st b)
                 end
             end
  end.

(** lines 647-654: one opening mark. *)
Definition open_mark (layer : nat) (a : stok) (st : option slst) (i : nat) : option slst :=
  match st with
  | None => None
  | Some st =>
      let e := elisionLevel "(" (k_text a) i in
      if (e <? 0)%Z then Some st
      else
        let l := Z.to_nat e in
        if negb ((l <? LEVELS) && (layer <? LAYERS)) then None
        else Some (set_opens st l layer (a :: s_opens st l layer))
  end.

(** lines 570-654: one token of a row; null tokens are skipped. *)
Definition slur_token (st : option slst) (p : nat * stok) : option slst :=
  let '(layer, tok) := p in
  if is_null (k_text tok) then st
  else
    let st1 := fold_left (close_mark layer tok) (seq 0 (count_char ")" (k_text tok))) st in
    fold_left (open_mark layer tok) (seq 0 (count_char "(" (k_text tok))) st1.

Fixpoint enumerate_from {A} (n : nat) (l : list A) : list (nat * A) :=
  match l with [] => [] | x :: l' => (n, x) :: enumerate_from (S n) l' end.

(** The track as getTrackSequence gives it: one row per data line, one text per layer. *)
Definition number_row (r : nat) (row : list str) : list (nat * stok) :=
  map (fun p => (fst p, mkSt (r, fst p) (snd p))) (enumerate_from 0 row).

(** The whole track; the openings left in [s_opens] are marked as hanging (lines 656-663). *)
Definition analyzeSpineSlurs (rows : list (list str)) : option slst :=
  fold_left (fun st row => fold_left slur_token (number_row (fst row) (snd row)) st)
            (enumerate_from 0 rows) (Some s0).

(** humdrumfile.py lines 7362-7395: the slurs made for a token, as (number of the
    opening mark, start token). *)
Definition slurs_ending_at (st : slst) (b : nat * nat) : list (Z * (nat * nat)) :=
  flat_map (fun i => match s_startId st b (tag_number (Z.of_nat i)) with
                     | Some a => [(s_startNum st b (tag_number (Z.of_nat i)), a)]
                     | None => [] end)
           (seq 1 (Z.to_nat (s_endCount st b))).

(** * Linked ties: humdrumfilecontent.py lines 843-905 *)
(** A subtoken: its token, its index in the token, its text, and whether the token is a
    chord. *)
Record sub := mkSub { u_tok : nat * nat; u_idx : nat; u_text : str; u_chord : bool }.

(** startDatabase (a list of 400 entries, negative indices count from the end) and the
    pairs of linkedTieStarts and linkedTieEnds.  [None] is IndexError. *)
Record tst := mkT { t_db : Z -> option sub; t_pairs : list (sub * sub) }.
Definition db_index (b : Z) : option Z :=
  if (0 <=? b)%Z then (if (b <? 400)%Z then Some b else None)
  else if (-400 <=? b)%Z then Some (b + 400)%Z else None.
Definition db_set (f : Z -> option sub) (k : Z) (v : option sub) : Z -> option sub :=
  fun x => if Z.eqb x k then v else f x.

Definition tie_sub (link : str) (st : option tst) (s : sub) : option tst :=
  match st with
  | None => None
  | Some st =>
      let hasStart := contains (link ++ S_ "[") (u_text s) in
      let hasEnd := contains (link ++ S_ "]") (u_text s) in
      let hasMiddle := contains (link ++ S_ "_") (u_text s) in
      if negb (hasStart || hasEnd || hasMiddle) then Some st
      else match db_index (kernToBase40 (u_text s)) with
      | None => None
      | Some b =>
          let st1 := if hasStart then mkT (db_set (t_db st) b (Some s)) (t_pairs st) else st in
          let st2 := if hasEnd then
                       match t_db st1 b with
                       | Some a => mkT (db_set (t_db st1) b None) (t_pairs st1 ++ [(a, s)])
                       | None => st1
                       end
                     else st1 in
          let st3 := if hasMiddle then
                       mkT (db_set (t_db st2) b (Some s))
                           (match t_db st2 b with
                            | Some a => t_pairs st2 ++ [(a, s)]
                            | None => t_pairs st2
                            end)
                     else st2 in
          Some st3
      end
  end.

(** All subtokens of **kern notes, in file order (null tokens and rests are left out). *)
Definition linkedTies (link : str) (subs : list sub) : option (list (sub * sub)) :=
  match link with
  | [] => Some []
  | _ => match fold_left (tie_sub link) subs (Some (mkT (fun _ => None) [])) with
         | Some st => Some (t_pairs st)
         | None => None
         end
  end.

(** lines 933-973, _linkTieEndpoints: what is recorded on the start token (tieEnd,
    tieEndSubtokenNumber) and on the end token (tieStart, tieStartSubtokenNumber).  The tag
    has the number of the subtoken if the token is a chord (here zero stands for no number).
    Durations are not modelled. *)
Definition tie_tag (s : sub) : nat := if u_chord s then S (u_idx s) else 0.
Definition tie_table : Type := nat * nat -> nat -> option (nat * nat * nat).
Definition put_tag (t : tie_table) (s : sub) (v : nat * nat * nat) : tie_table :=
  fun x n => if id_eqb x (u_tok s) && Nat.eqb n (tie_tag s) then Some v else t x n.
Definition linkTieEndpoints (t : tie_table * tie_table) (p : sub * sub) : tie_table * tie_table :=
  let '(a, b) := p in
  (put_tag (fst t) a (u_tok b, S (u_idx b)), put_tag (snd t) b (u_tok a, S (u_idx a))).
Definition createLinkedTies (ps : list (sub * sub)) : tie_table * tie_table :=
  fold_left linkTieEndpoints ps (fun _ _ => None, fun _ _ => None).

(** * The tie of each note: humdrumfile.py lines 7746-7750, 8248-8403, 855-880 *)
(** A note (or note of a chord) of one staff, in the order of conversion: its layer, start
    time, duration and text, and whether the link pass has recorded a tie end or a tie start
    on it.  Styles of ties are not modelled. *)
Record tnote := mkN { n_layer : nat; n_time : Q; n_dur : Q; n_text : str;
                      n_linkedEnd : bool; n_linkedStart : bool }.
Inductive ttype := Tstart | Tcontinue | Tstop.

(** [o_ties]: the open ties of the staff (with the index of their start note);
    [o_tie]: the tie attribute of each note; [o_pairs]: the pairs made. *)
Record ost := mkO { o_ties : list (nat * tnote); o_tie : nat -> option ttype; o_pairs : list (nat * nat) }.
Definition set_tie (f : nat -> option ttype) (n : nat) (t : ttype) : nat -> option ttype :=
  fun x => if Nat.eqb x n then Some t else f x.

(** The type of the tie that starts at a note. *)
Definition start_type (text : str) : ttype := if char_in "_" text then Tcontinue else Tstart.
(** lines 8274-8279: stored on a linked note at once; then every start is appended. *)
Definition tieStart (st : ost) (i : nat) (e : tnote) : ost :=
  mkO (o_ties st ++ [(i, e)])
      (if n_linkedEnd e then set_tie (o_tie st) i (start_type (n_text e)) else o_tie st)
      (o_pairs st).

Definition disjunct_start (t : tnote) : bool := contains (S_ "[[") (n_text t) || contains (S_ "__") (n_text t).
Definition tie_fits (e t : tnote) : bool :=
  Z.eqb (kernToMidiNoteNumber (n_text t)) (kernToMidiNoteNumber (n_text e)) &&
  (((contains (S_ "]]") (n_text e) || contains (S_ "__") (n_text e)) && disjunct_start t)
   || Qeq_bool (n_time t + n_dur t)%Q (n_time e)).
(** lines 8347-8378: the first open tie of this layer, else the first of the staff. *)
Definition find_tie (ties : list (nat * tnote)) (e : tnote) : option (nat * tnote) :=
  match find (fun t => Nat.eqb (n_layer (snd t)) (n_layer e) && tie_fits e (snd t)) ties with
  | Some t => Some t
  | None => find (fun t => tie_fits e (snd t)) ties
  end.
(** ss.ties.remove; open ties are objects, here told apart by their start note. *)
Fixpoint remove_tie (i : nat) (ties : list (nat * tnote)) : list (nat * tnote) :=
  match ties with
  | [] => []
  | t :: ties' => if Nat.eqb (fst t) i then ties' else t :: remove_tie i ties'
  end.
Definition tieEnd (st : ost) (j : nat) (e : tnote) : ost :=
  if n_linkedStart e then
    (if char_in "]" (n_text e) then mkO (o_ties st) (set_tie (o_tie st) j Tstop) (o_pairs st) else st)
  else match find_tie (o_ties st) e with
       | None =>
           if char_in "_" (n_text e) then st
           else mkO (o_ties st) (set_tie (o_tie st) j Tstop) (o_pairs st)
       | Some (i, t) =>
           let f1 := set_tie (o_tie st) i (start_type (n_text t)) in
           let f2 := if char_in "]" (n_text e) then set_tie f1 j Tstop else f1 in
           mkO (remove_tie i (o_ties st)) f2 (o_pairs st ++ [(i, j)])
       end.
Definition note_ties (st : ost) (p : nat * tnote) : ost :=
  let '(i, e) := p in
  let st1 := if char_in "[" (n_text e) || char_in "_" (n_text e) then tieStart st i e else st in
  if char_in "]" (n_text e) || char_in "_" (n_text e) then tieEnd st1 i e else st1.
(** lines 840-843: the ties still open. *)
Definition hanging_ties (st : ost) : ost :=
  mkO [] (fold_left (fun f t => set_tie f (fst t) (start_type (n_text (snd t)))) (o_ties st) (o_tie st)) (o_pairs st).
Definition staffTies (notes : list tnote) : ost :=
  hanging_ties (fold_left note_ties (enumerate_from 0 notes) (mkO [] (fun _ => None) [])).
