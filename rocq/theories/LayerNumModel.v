(** Model of the numbers and labels of the layers of a staff in exported MEI
    (mei/meilayer.py, mei/meistaff.py), and of their reading (mei/meireader.py). *)
From Coq Require Import ZArith.
From Verif Require Import PyStr.

(** The id of a music21 voice: a number, or a number so high that it is a place in
    memory, or a string, or something else; and the attribute [c21_label], if the
    voice has it (meilayer.py:150-152). *)
Inductive vid := Num (z : Z) | Mem | Name (s : str) | Other.
Record voice := mkV { v_id : vid; v_label : option str }.
(** The attributes of a <layer>: [n] and [label]; an empty label is not written
    (meilayer.py:154-162). *)
Record layer := mkLa { n : Z; label : str }.

(** [MeiLayer.makeRootElement] (meilayer.py:122-162); [next] is the staff's
    [nextFreeVoiceNumber].  Only for staves with voices; a measure without voices is
    one layer without a number. *)
Definition layerOf (next : Z) (v : voice) : layer * Z :=
  let '(k, l, next') := match v_id v with
    | Num z => (z, [], (z + 1)%Z)
    | Mem | Other => (next, [], (next + 1)%Z)
    | Name s => (next, s, (next + 1)%Z)
    end in
  (mkLa k (match v_label v with Some s => s | None => l end), next').
Fixpoint layersFrom (next : Z) (vs : list voice) : list layer :=
  match vs with
  | [] => []
  | v :: vs' => let '(l, next') := layerOf next v in l :: layersFrom next' vs'
  end.
(** [MeiStaff.makeRootElement] (meistaff.py:73). *)
Definition layers (vs : list voice) : list layer := layersFrom 1 vs.

(** [layerFromElement] (meireader.py:6358-6367): the id is the string of [n]; the label
    is not read. *)
Definition readLayer (l : layer) : voice := mkV (Name (show_Z (n l))) None.
