(** Model of the clef table of converter21/humdrum/convert.py. *)
From Verif Require Import PyStr PitchModel.
Local Open Scope Z_scope.

(** [Convert.CLEF_TO_BASELINE_PITCH] (convert.py:1026-1132). *)
Definition clefToBaselinePitch : list (str * str) := [
  (S_ "G2", S_ "e");
  (S_ "F4", S_ "GG");
  (S_ "C3", S_ "F");
  (S_ "C4", S_ "D");
  (S_ "Gv2", S_ "E");
  (S_ "C1", S_ "c");
  (S_ "C2", S_ "A");
  (S_ "C5", S_ "BB");
  (S_ "G1", S_ "g");
  (S_ "G3", S_ "c");
  (S_ "G4", S_ "A");
  (S_ "G5", S_ "F");
  (S_ "F1", S_ "F");
  (S_ "F2", S_ "D");
  (S_ "F3", S_ "BB");
  (S_ "F5", S_ "EE");
  (S_ "Gv1", S_ "G");
  (S_ "Gv3", S_ "C");
  (S_ "Gv4", S_ "AA");
  (S_ "Gv5", S_ "FF");
  (S_ "Fv1", S_ "FF");
  (S_ "Fv2", S_ "DD");
  (S_ "Fv3", S_ "BBB");
  (S_ "Fv4", S_ "GGG");
  (S_ "Fv5", S_ "EEE");
  (S_ "Cv1", S_ "C");
  (S_ "Cv2", S_ "AA");
  (S_ "Cv3", S_ "FF");
  (S_ "Cv4", S_ "DD");
  (S_ "Cv5", S_ "BBB");
  (S_ "G^1", S_ "gg");
  (S_ "G^2", S_ "ee");
  (S_ "G^3", S_ "cc");
  (S_ "G^4", S_ "a");
  (S_ "G^5", S_ "f");
  (S_ "F^1", S_ "f");
  (S_ "F^2", S_ "d");
  (S_ "F^3", S_ "B");
  (S_ "F^4", S_ "G");
  (S_ "F^5", S_ "E");
  (S_ "C^1", S_ "cc");
  (S_ "C^2", S_ "a");
  (S_ "C^3", S_ "f");
  (S_ "C^4", S_ "d");
  (S_ "C^5", S_ "B");
  (S_ "Gvv1", S_ "GG");
  (S_ "Gvv2", S_ "EE");
  (S_ "Gvv3", S_ "CC");
  (S_ "Gvv4", S_ "AAA");
  (S_ "Gvv5", S_ "FFF");
  (S_ "Fvv1", S_ "FFF");
  (S_ "Fvv2", S_ "DDD");
  (S_ "Fvv3", S_ "BBBB");
  (S_ "Fvv4", S_ "GGGG");
  (S_ "Fvv5", S_ "EEEE");
  (S_ "Cvv1", S_ "CC");
  (S_ "Cvv2", S_ "AAA");
  (S_ "Cvv3", S_ "FFF");
  (S_ "Cvv4", S_ "DDD");
  (S_ "Cvv5", S_ "BBBB");
  (S_ "G^^1", S_ "ggg");
  (S_ "G^^2", S_ "eee");
  (S_ "G^^3", S_ "ccc");
  (S_ "G^^4", S_ "aa");
  (S_ "G^^5", S_ "ff");
  (S_ "F^^1", S_ "ff");
  (S_ "F^^2", S_ "dd");
  (S_ "F^^3", S_ "b");
  (S_ "F^^4", S_ "g");
  (S_ "F^^5", S_ "e");
  (S_ "C^^1", S_ "ccc");
  (S_ "C^^2", S_ "aa");
  (S_ "C^^3", S_ "ff");
  (S_ "C^^4", S_ "dd");
  (S_ "C^^5", S_ "b")].

(** Dictionary lookup. *)
Fixpoint assoc_str {V} (k : str) (d : list (str * V)) : option V :=
  match d with
  | [] => None
  | (k', v) :: d' => if str_eqb k k' then Some v else assoc_str k d'
  end.

(** [Convert.kernClefToBaseline] (convert.py:1134-1149).  The error message
    printed for a text that is not a clef is not modelled. *)
Definition kernClefToBaseline (text : str) : Z :=
  let look name :=
    match assoc_str name clefToBaselinePitch with
    | Some p => kernToBase7 p
    | None => kernToBase7 (S_ "e")
    end in
  if starts_with (S_ "*clef") text then look (skipn 5 text)
  else if starts_with (S_ "clef") text then look (skipn 4 text)
  else -1000.
