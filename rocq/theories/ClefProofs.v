(** Clefs: the bottom staff line follows from the clef's sign, line and octave. *)
From Verif Require Import PyStr PyStrProofs PitchModel PitchProofs ClefModel.
Local Open Scope Z_scope.

(** Specification: what a clef means.  The sign names a pitch (G4, F3 or C4);
    the line says which of the five staff lines carries it; each [v] ([^])
    moves everything an octave down (up).  Two diatonic steps separate lines. *)
Inductive clef_sign := ClefG | ClefF | ClefC.
Definition sign_char (s : clef_sign) : ascii :=
  match s with ClefG => "G" | ClefF => "F" | ClefC => "C" end%char.
Definition sign_position (s : clef_sign) : Z :=
  match s with ClefG => 7 * 4 + step_index StG | ClefF => 7 * 3 + step_index StF
             | ClefC => 7 * 4 + step_index StC end.
Inductive clef_octave := Down2 | Down1 | Same | Up1 | Up2.
Definition octave_marks (o : clef_octave) : str :=
  match o with Down2 => S_ "vv" | Down1 => S_ "v" | Same => [] | Up1 => S_ "^" | Up2 => S_ "^^" end.
Definition octave_shift (o : clef_octave) : Z :=
  match o with Down2 => -2 | Down1 => -1 | Same => 0 | Up1 => 1 | Up2 => 2 end.
Inductive clef_line := Line1 | Line2 | Line3 | Line4 | Line5.
Definition line_char (l : clef_line) : ascii :=
  match l with Line1 => "1" | Line2 => "2" | Line3 => "3" | Line4 => "4" | Line5 => "5" end%char.
Definition line_number (l : clef_line) : Z :=
  match l with Line1 => 1 | Line2 => 2 | Line3 => 3 | Line4 => 4 | Line5 => 5 end.

Lemma clef_baseline star s o l :
  kernClefToBaseline ((if star : bool then S_ "*" else []) ++ S_ "clef" ++ sign_char s :: octave_marks o ++ [line_char l])
  = sign_position s + 7 * octave_shift o - 2 * (line_number l - 1).
Proof. destruct star, s, o, l; vm_compute; reflexivity. Qed.

(** Each baseline is a position base7ToKern spells back. *)
Lemma clef_baseline_range text : kernClefToBaseline text = -1000 \/ 0 <= kernClefToBaseline text < 119.
Proof.
  unfold kernClefToBaseline.
  assert (H : forall name, 0 <= match assoc_str name clefToBaselinePitch with
                                | Some p => kernToBase7 p | None => kernToBase7 (S_ "e") end < 119).
  { intro name. assert (F : forallb (fun kv => (0 <=? kernToBase7 (snd kv)) && (kernToBase7 (snd kv) <? 119))
                              clefToBaselinePitch = true) by (vm_compute; reflexivity).
    revert F. generalize clefToBaselinePitch as d. induction d as [|[k v] d IH]; intro F.
    - vm_compute. split; [discriminate|reflexivity].
    - cbn [forallb snd] in F. apply andb_true_iff in F as [F1 F2]. cbn [assoc_str].
      destruct (str_eqb name k); [lia|apply IH; exact F2]. }
  destruct (starts_with _ text); [right; apply H|].
  destruct (starts_with _ text); [right; apply H|left; reflexivity].
Qed.
