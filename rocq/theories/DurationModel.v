(** Models of the duration-splitting functions of m21utilities.py. *)
From Verif Require Import PyStr RecipModel.
From Coq Require Import QArith Qround.
Local Close Scope Q_scope.

(** m21utilities.py:1219-1243, [computeDurationNoDotsAndNumDots]. *)
Definition computeDurationNoDotsAndNumDots (dd : Q) : Q * option nat :=
  if isPowerOfTwo dd then (dd, Some 0)
  else if isPowerOfTwo (dd * (2 # 3))%Q then ((dd * (2 # 3))%Q, Some 1)
  else if isPowerOfTwo (dd * (4 # 7))%Q then ((dd * (4 # 7))%Q, Some 2)
  else if isPowerOfTwo (dd * (8 # 15))%Q then ((dd * (8 # 15))%Q, Some 3)
  else (dd, None).

(** The [while] loop of m21utilities.py:1257-1269: [p] is [powerOfTwoQLAttempt].
    [Some (Some l)]: returns [l]; [Some None]: the loop ends; [None]: out of
    fuel. *)
Fixpoint split_loop (fuel : nat) (p ql : Q) (out : list Q) : option (option (list Q)) :=
  match fuel with
  | O => None
  | S f =>
      if Qle_bool (1 # 2048) p then
        let '(p', ql', out') :=
          if Qle_bool p ql then (p, (ql - p)%Q, out ++ [p]) else ((p / 2)%Q, ql, out) in
        if isPowerOfTwoWithDots ql' then Some (Some (out' ++ [ql']))
        else split_loop f p' ql' out'
      else Some None
  end.

(** Enough iterations for the loop (DurationProofs.v): 14 halvings, and
    subtractions of at least 1/2048. *)
Definition split_fuel (ql : Q) : nat := 16 + Z.to_nat (Qceiling (ql * 2048)).

(** m21utilities.py:1245-1272, [getPowerOfTwoQuarterLengthsWithDotsAddingTo].
    [None]: out of fuel. *)
Definition getPowerOfTwoQuarterLengthsWithDotsAddingTo (ql : Q) : option (list Q) :=
  if isPowerOfTwoWithDots ql then Some [ql]
  else match split_loop (split_fuel ql) 4 ql [] with
       | None => None
       | Some (Some l) => Some l
       | Some None => Some [ql]
       end.

(** A music21 Duration as far as it matters here: the length without tuplet and
    the multiplier of its tuplet (one when there is none); its quarterLength is
    the product. *)
Definition dur := (Q * Q)%type.
Definition ql_of (d : dur) : Q := (fst d * snd d)%Q.
(** [m21.duration.Duration(q)], only used on lengths writable with dots. *)
Definition new_dur (q : Q) : dur := (q, 1%Q).

(** m21utilities.py:1274-1284, [getPowerOfTwoDurationsWithDotsAddingTo]. *)
Definition getPowerOfTwoDurationsWithDotsAddingTo (ql : Q) : option (list dur) :=
  match getPowerOfTwoQuarterLengthsWithDotsAddingTo ql with
  | None => None
  | Some [q] => if isPowerOfTwoWithDots q then Some [new_dur q] else Some []
  | Some l => Some (map new_dur l)
  end.

Inductive crossing_result :=
| Crossed (before after : list dur)
| CrossingError        (* raises Converter21InternalError *)
| CrossingLoop.        (* out of fuel *)

(** m21utilities.py:1298-1305 and 1307-1312: one side without a tuplet.
    [Some None]: a tuplet is needed. *)
Definition plain_side (q : Q) : option (option (list dur)) :=
  if Qeq_bool q 0 then Some (Some [])
  else if isPowerOfTwoWithDots q then Some (Some [new_dur q])
  else match getPowerOfTwoDurationsWithDotsAddingTo q with
       | None => None
       | Some [] => Some None
       | Some l => Some (Some l)
       end.

(** m21utilities.py:1383-1391: the element of [durs] that holds the crossing,
    with its index and offset. *)
Fixpoint find_crossing (i : nat) (cur crossing : Q) (durs : list dur) : option (nat * Q * Q) :=
  match durs with
  | [] => None
  | d :: ds =>
      let next := (cur + ql_of d)%Q in
      if Qle_bool cur crossing && negb (Qle_bool next crossing) then Some (i, ql_of d, (crossing - cur)%Q)
      else find_crossing (S i) next crossing ds
  end.

Section Crossing.
  (** music21's [quarterLengthToTuplet]: the first tuplet it proposes for a
      length, as (numberNotesActual, tupletMultiplier). *)
  Variable tuplet_for : Q -> option (Z * Q).

  (** m21utilities.py:1335-1337: the [while] loop. *)
  Fixpoint tuplet_element (fuel : nat) (q : Q) (actual : Z) : option Q :=
    match fuel with
    | O => None
    | S f => if isPowerOfTwoWithDots q then tuplet_element f (q / inject_Z actual)%Q actual else Some q
    end.

  (** m21utilities.py:1287-1429; [fuel] bounds the recursion and the loop.
      Python's [totalDurs[:foundIdx - 1]] is [firstn (foundIdx - 1)]. *)
  Fixpoint crossing_split (fuel : nat) (total crossing : Q) : crossing_result :=
    match fuel with
    | O => CrossingLoop
    | S f =>
        let second := (total - crossing)%Q in
        match plain_side crossing, plain_side second with
        | Some (Some o1), Some (Some o2) => Crossed o1 o2
        | None, _ => CrossingLoop
        | Some (Some _), None => CrossingLoop
        | _, _ =>
            if isPowerOfTwoWithDots total then
              match tuplet_for (1 # qden crossing)%Q with
              | None => CrossingError
              | Some (actual0, _) =>
                  match tuplet_element fuel total actual0 with
                  | None => CrossingLoop
                  | Some element =>
                      match tuplet_for element with
                      | None => CrossingError
                      | Some (_, mult) =>
                          let actual := Qfloor (total / element) in
                          let normal := Qfloor (inject_Z actual * mult) in
                          let shown := (inject_Z normal / inject_Z actual)%Q in
                          match crossing_split f (total / mult)%Q (crossing / mult)%Q with
                          | Crossed o1 o2 =>
                              let set (d : dur) := (fst d, shown) in
                              Crossed (map set o1) (map set o2)
                          | e => e
                          end
                      end
                  end
              end
            else
              match getPowerOfTwoDurationsWithDotsAddingTo total with
              | None => CrossingLoop
              | Some [] => CrossingError
              | Some totalDurs =>
                  match find_crossing 0 0 crossing totalDurs with
                  | None => CrossingError
                  | Some (i, newTotal, newCrossing) =>
                      match crossing_split f newTotal newCrossing with
                      | Crossed before after =>
                          Crossed (if i =? 0 then before else firstn (i - 1) totalDurs ++ before)
                                  (after ++ skipn (S i) totalDurs)
                      | e => e
                      end
                  end
              end
        end
    end.
End Crossing.
