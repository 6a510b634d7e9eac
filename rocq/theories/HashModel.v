(** Model of converter21/humdrum/humhash.py. *)
From Verif Require Import PyStr.

(** A Python [dict] with string keys, as an association list in insertion
    order. *)
Definition dict (V : Type) := list (str * V).

Fixpoint dget {V} (k : str) (d : dict V) : option V :=
  match d with
  | [] => None
  | (k', v) :: d' => if str_eqb k k' then Some v else dget k d'
  end.

(** [d[k] = v]: replaces in place, or appends. *)
Fixpoint dset {V} (k : str) (v : V) (d : dict V) : dict V :=
  match d with
  | [] => [(k, v)]
  | (k', v') :: d' => if str_eqb k k' then (k', v) :: d' else (k', v') :: dset k v d'
  end.

(** [del d[k]]. *)
Fixpoint ddel {V} (k : str) (d : dict V) : dict V :=
  match d with
  | [] => []
  | (k', v') :: d' => if str_eqb k k' then d' else (k', v') :: ddel k d'
  end.

Definition dmem {V} (k : str) (d : dict V) : bool :=
  match dget k d with Some _ => true | None => false end.

(** [getKeyTuple] (humhash.py:23-31). *)
Definition getKeyTuple (inKey : str) : str * str * str :=
  match split_char ":"%char inKey with
  | [k] => ([], [], k)
  | [n2; k] => ([], n2, k)
  | n1 :: n2 :: k :: _ => (n1, n2, k)
  | [] => ([], [], [])   (* str.split never returns an empty list *)
  end.

(** [fixupNamespace1Namespace2Key] (humhash.py:33-64); [None] is ValueError. *)
Definition fixupNamespace1Namespace2Key (args : list str) : option (str * str * str) :=
  let finish n1 n2 k :=
    let '(n1, n2, k) :=
      match n1, n2 with [], [] => getKeyTuple k | _, _ => (n1, n2, k) end in
    match n2, n1 with
    | [], _ :: _ => Some (n2, n1, k)
    | _, _ => Some (n1, n2, k)
    end in
  match args with
  | [k] => finish [] [] k
  | [n2; k] => finish [] n2 k
  | [n1; n2; k] => finish n1 n2 k
  | _ => None
  end.

(** [fixupNamespace1Namespace2] (humhash.py:66-80).  [getKeyTuple] returns a
    3-tuple, so the test [len(keyTuple) == 2] is always false; it is kept as in
    the code. *)
Definition keyTuple_len (_ : str * str * str) : nat := 3.
Definition fixupNamespace1Namespace2 (ns1 ns2 : option str) : option str * option str :=
  let '(ns1, ns2) := match ns1, ns2 with None, Some _ => (ns2, ns1) | _, _ => (ns1, ns2) end in
  match ns1, ns2 with
  | Some n, None =>
      let kt := getKeyTuple n in
      if keyTuple_len kt =? 2 then (Some (fst (fst kt)), Some (snd (fst kt))) else (ns1, ns2)
  | _, _ => (ns1, ns2)
  end.

Section Hash.
  Variable V : Type.   (* values *)
  Variable T : Type.   (* tokens, as origins *)

  (** [HumParameter] (humhash.py:82-108). *)
  Record param := Param { p_value : V; p_origin : option T }.

  (** [HumHash._parameters] (humhash.py:111-114). *)
  Definition params := dict (dict (dict param)).

  (** [HumHash.setValue] (humhash.py:153-166). *)
  Definition setValue (args : list str) (v : V) (p : params) : option params :=
    match fixupNamespace1Namespace2Key args with
    | None => None
    | Some (n1, n2, k) =>
        let new := Param v None in
        match dget n1 p with
        | None => Some (dset n1 [(n2, [(k, new)])] p)
        | Some d1 =>
            match dget n2 d1 with
            | None => Some (dset n1 (dset n2 [(k, new)] d1) p)
            | Some d2 => Some (dset n1 (dset n2 (dset k new d2) d1) p)
            end
        end
    end.

  (** The nested membership tests shared by getValue, isDefined, getOrigin
      (humhash.py:181-193, 311-321, 379-394). *)
  Definition find_param (p : params) (a : str * str * str) : option param :=
    let '(n1, n2, k) := a in
    match dget n1 p with
    | None => None
    | Some d1 => match dget n2 d1 with None => None | Some d2 => dget k d2 end
    end.

  (** [getValue] (humhash.py:181-193); outer [None] is ValueError.  On an empty
      store the code returns before looking at the arguments. *)
  Definition getValue (args : list str) (p : params) : option (option V) :=
    match p with
    | [] => Some None
    | _ => match fixupNamespace1Namespace2Key args with
           | None => None
           | Some a => Some (option_map p_value (find_param p a))
           end
    end.

  (** [isDefined] (humhash.py:311-321). *)
  Definition isDefined (args : list str) (p : params) : option bool :=
    match p with
    | [] => Some false
    | _ => match fixupNamespace1Namespace2Key args with
           | None => None
           | Some a => Some (match find_param p a with Some _ => true | None => false end)
           end
    end.

  (** [deleteValue] (humhash.py:330-343). *)
  Definition deleteValue (args : list str) (p : params) : option params :=
    match p with
    | [] => Some p
    | _ =>
      match fixupNamespace1Namespace2Key args with
      | None => None
      | Some (n1, n2, k) =>
          match dget n1 p with
          | None => Some p
          | Some d1 =>
              match dget n2 d1 with
              | None => Some p
              | Some d2 =>
                  if dmem k d2 then Some (dset n1 (dset n2 (ddel k d2) d1) p) else Some p
              end
          end
      end
    end.

  (** [setOrigin] (humhash.py:350-371); the type check on the origin is not
      modelled. *)
  Definition setOrigin (args : list str) (o : T) (p : params) : option params :=
    match p with
    | [] => Some p
    | _ =>
      match fixupNamespace1Namespace2Key args with
      | None => None
      | Some (n1, n2, k) =>
          match dget n1 p with
          | None => Some p
          | Some d1 =>
              match dget n2 d1 with
              | None => Some p
              | Some d2 =>
                  match dget k d2 with
                  | None => Some p
                  | Some q =>
                      Some (dset n1 (dset n2 (dset k (Param (p_value q) (Some o)) d2) d1) p)
                  end
              end
          end
      end
    end.

  (** [getOrigin] (humhash.py:379-394). *)
  Definition getOrigin (args : list str) (p : params) : option (option T) :=
    match p with
    | [] => Some None
    | _ => match fixupNamespace1Namespace2Key args with
           | None => None
           | Some a => Some (match find_param p a with Some q => p_origin q | None => None end)
           end
    end.

  Definition colon : str := [":"%char].

  (** [getKeys] (humhash.py:407-436). *)
  Definition getKeys (ns1 ns2 : option str) (p : params) : list str :=
    match fixupNamespace1Namespace2 ns1 ns2 with
    | (None, _) =>
        flat_map (fun e1 : str * _ => flat_map (fun e2 : str * _ => map (fun e3 : str * _ =>
          fst e1 ++ colon ++ fst e2 ++ colon ++ fst e3) (snd e2)) (snd e1)) p
    | (Some n1, None) =>
        match dget n1 p with
        | None => []
        | Some d1 => flat_map (fun e2 : str * _ => map (fun e3 : str * _ =>
                       fst e2 ++ colon ++ fst e3) (snd e2)) d1
        end
    | (Some n1, Some n2) =>
        match dget n1 p with
        | None => []
        | Some d1 => match dget n2 d1 with None => [] | Some d2 => map fst d2 end
        end
    end.

  Definition nonempty {A} (l : list A) : bool := match l with [] => false | _ => true end.

  (** [hasParameters] (humhash.py:448-476). *)
  Definition hasParameters (ns1 ns2 : option str) (p : params) : bool :=
    match fixupNamespace1Namespace2 ns1 ns2 with
    | (None, _) => existsb (fun e1 : str * _ => existsb (fun e2 : str * _ => nonempty (snd e2)) (snd e1)) p
    | (Some n1, None) =>
        match dget n1 p with
        | None => false
        | Some d1 => existsb (fun e2 : str * _ => nonempty (snd e2)) d1
        end
    | (Some n1, Some n2) =>
        match dget n1 p with
        | None => false
        | Some d1 => match dget n2 d1 with None => false | Some d2 => nonempty d2 end
        end
    end.

  (** [getParameterCount] (humhash.py:489-515); the running [count] is a fold. *)
  Definition getParameterCount (ns1 ns2 : option str) (p : params) : nat :=
    match fixupNamespace1Namespace2 ns1 ns2 with
    | (None, _) =>
        fold_left (fun c (e1 : str * _) => fold_left (fun c (e2 : str * _) => c + length (snd e2)) (snd e1) c) p 0
    | (Some n1, None) =>
        match dget n1 p with
        | None => 0
        | Some d1 => fold_left (fun c (e2 : str * _) => c + length (snd e2)) d1 0
        end
    | (Some n1, Some n2) =>
        match dget n1 p with
        | None => 0
        | Some d1 => match dget n2 d1 with None => 0 | Some d2 => length d2 end
        end
    end.

  (** One mutating call. *)
  Inductive hop :=
  | HSet (args : list str) (v : V)
  | HDel (args : list str)
  | HOrigin (args : list str) (o : T).

  Definition hstep (o : hop) (p : params) : option params :=
    match o with
    | HSet a v => setValue a v p
    | HDel a => deleteValue a p
    | HOrigin a t => setOrigin a t p
    end.

  (** A history of calls on a new store; [None] if one of them raised. *)
  Fixpoint hrun (ops : list hop) (p : params) : option params :=
    match ops with
    | [] => Some p
    | o :: os => match hstep o p with None => None | Some p' => hrun os p' end
    end.
End Hash.
Arguments Param {V T}. Arguments p_value {V T}. Arguments p_origin {V T}.
Arguments setValue {V T}. Arguments getValue {V T}. Arguments isDefined {V T}.
Arguments deleteValue {V T}. Arguments setOrigin {V T}. Arguments getOrigin {V T}.
Arguments getKeys {V T}. Arguments hasParameters {V T}. Arguments getParameterCount {V T}.
Arguments HSet {V T}. Arguments HDel {V T}. Arguments HOrigin {V T}.
Arguments hstep {V T}. Arguments hrun {V T}. Arguments find_param {V T}.
