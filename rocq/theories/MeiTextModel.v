(** Text of MEI elements: directions, tempos, syllables, chord symbols, titles
    and names are all read by one function. *)
From Coq Require Import List Ascii String Arith NArith ZArith Lia Bool.
From Verif Require Import PyStr LayoutModel ClefModel.
Import ListNotations.

(** meielement.py:23-50: an element; its name is the tag without the namespace. *)
Inductive xml := El (name : str) (attrs : list (str * str)) (text : str) (subs : list xml) (tail : str).
Definition x_name (e : xml) : str := let 'El n _ _ _ _ := e in n.
Definition x_attrs (e : xml) : list (str * str) := let 'El _ a _ _ _ := e in a.
Definition x_text (e : xml) : str := let 'El _ _ t _ _ := e in t.
Definition x_subs (e : xml) : list xml := let 'El _ _ _ s _ := e in s.
Definition x_tail (e : xml) : str := let 'El _ _ _ _ t := e in t.

(** meielement.py:70-71, [get] with the default ''. *)
Definition x_get (k : str) (attrs : list (str * str)) : str := match assoc_str k attrs with Some v => v | None => [] end.

(** meielement.py:73-84, [findAll('*', recurse=True)]: an element before its own
    sub-elements. *)
Fixpoint all_subs (e : xml) : list xml := match e with El _ _ _ ss _ => flat_map (fun s => s :: all_subs s) ss end.

(** meielement.py:86-98, [findFirst(name, recurse=False)]. *)
Definition find_first (name : str) (ss : list xml) : option xml := find (fun s => str_eqb (x_name s) name) ss.

(** meishared.py:91-108. *)
Definition passthru : list str :=
  [S_ "add"; S_ "corr"; S_ "damage"; S_ "expan"; S_ "orig"; S_ "reg"; S_ "sic"; S_ "subst"; S_ "supplied"; S_ "unclear"].
Definition choosing : list str := [S_ "app"; S_ "choice"].
Definition mem (n : str) (l : list str) : bool := existsb (str_eqb n) l.

(** meishared.py:165-187, [chooseSubMeiElement]. *)
Definition choose (e : xml) : option xml :=
  let ss := x_subs e in
  if str_eqb (x_name e) (S_ "app") then
    match find_first (S_ "lem") ss with Some s => Some s | None => find_first (S_ "rdg") ss end
  else
    match find_first (S_ "corr") ss with
    | Some s => Some s
    | None => match find_first (S_ "reg") ss with Some s => Some s | None => hd_error ss end
    end.

(** meishared.py:197-199 and its like: a text that is nothing but white space and
    begins with a line end is only the layout of the file. *)
Definition keep (t : str) : str :=
  match t with
  | [] => []
  | c :: _ => if Ascii.eqb c newline && forallb is_space t then [] else t
  end.

(** meishared.py:213-233: what a `rend` element sets, in order. *)
Definition rend_style (a : list (str * str)) : list (str * str) :=
  let one (attr key : str) := match x_get attr a with [] => [] | v => [(key, v)] end in
  one (S_ "fontstyle") (S_ "fontStyle") ++ one (S_ "fontweight") (S_ "fontWeight") ++ one (S_ "fontsize") (S_ "fontSize")
  ++ one (S_ "fontfam") (S_ "fontFamily") ++ one (S_ "halign") (S_ "justify") ++ one (S_ "color") (S_ "color")
  ++ (let r := x_get (S_ "rend") a in
      if mem r [S_ "box"; S_ "circle"; S_ "dbox"; S_ "tbox"] then [(S_ "enclosure", r)] else []).

(** A dictionary as the list of what was put into it: the last value of a key counts. *)
Definition d_get (k : str) (d : list (str * str)) : option str := assoc_str k (rev d).

Section Text.
(** Characters of glyphs by number and by name (meishared.py:110-124). *)
Context (glyph_num glyph_name : str -> str).

(** meishared.py:256-263. *)
Definition symbol_text (a : list (str * str)) : str :=
  let auth := x_get (S_ "glyph.auth") a in
  if match auth with [] => true | _ => str_eqb auth (S_ "smufl") end then
    match x_get (S_ "glyph.num") a with
    | [] => match x_get (S_ "glyph.name") a with [] => [] | n => glyph_name n end
    | n => glyph_num n
    end
  else [].

(** The children read: all, or those before the first one called [endAt]
    (meishared.py:204-207). *)
Fixpoint until (endAt : str) (ss : list xml) : list xml :=
  match ss with
  | [] => []
  | s :: r => match endAt with
              | [] => s :: r
              | _ => if str_eqb (x_name s) endAt then [] else s :: until endAt r
              end
  end.

Definition cat2 (l : list (str * list (str * str))) : str * list (str * str) := (flat_map fst l, flat_map snd l).

(** meishared.py:190-277, [textFromElem]; [fuel] bounds the depth of the tree. *)
Fixpoint textFromElem (fuel : nat) (endAt : str) (e : xml) : str * list (str * str) :=
  match fuel with
  | O => ([], [])
  | S f =>
      let child (c : xml) : str * list (str * str) :=
        let n := x_name c in
        let '(before, style, el) :=
          if str_eqb n (S_ "rend") then ([], rend_style (x_attrs c), Some c)
          else if mem n choosing then ([], [], choose c)
          else if mem n passthru then (flat_map (fun s => keep (x_text s) ++ keep (x_tail s)) (all_subs c), [], Some c)
          else if str_eqb n (S_ "lb") then ([newline], [], Some c)
          else if str_eqb n (S_ "symbol") then (symbol_text (x_attrs c), [], Some c)
          else ([], [], Some c) in
        match el with
        | None => ([], [])
        | Some s => let (t, st) := textFromElem f [] s in (before ++ t ++ keep (x_tail s), style ++ st)
        end in
      let (t, st) := cat2 (map child (until endAt (x_subs e))) in
      (keep (x_text e) ++ t, st)
  end.

Fixpoint depth (e : xml) : nat := match e with El _ _ _ ss _ => S (fold_right Nat.max 0 (map depth ss)) end.
Definition text_of (endAt : str) (e : xml) : str * list (str * str) := textFromElem (depth e) endAt e.
End Text.
