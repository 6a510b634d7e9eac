(** Time stamps of MEI (the [tstamp] and [tstamp2] attributes): how the exporter writes a
    position in a measure, and how the importer reads it back.

    Floating-point numbers are rationals; every operation that rounds in the code is wrapped in
    [flt], an arbitrary rounding function that the theorems only assume to be accurate.
    Offsets of music21 (fractions, or floats that are exact) are rationals. *)
From Coq Require Import QArith Qround Qabs Qreduction.
From Verif Require Import PyStr RecipModel.
Local Close Scope Q_scope.

(** ** Fractions of small denominator *)

(** meireader.py:7089-7100, the loop of [_preFracLimitDenominator]; [None]: a division by zero,
    or out of fuel.  Gives [p0, q0, p1, q1] at the [break]. *)
Fixpoint lim_loop (fuel : nat) (limit n d p0 q0 p1 q1 : Z) : option (Z * Z * Z * Z) :=
  match fuel with
  | O => None
  | S f =>
      if (d =? 0)%Z then None
      else
        let a := (n / d)%Z in
        let q2 := (q0 + a * q1)%Z in
        if (limit <? q2)%Z then Some (p0, q0, p1, q1)
        else lim_loop f limit d (n - a * d)%Z p1 q1 (p0 + a * p1)%Z q2
  end.

(** meireader.py:7075-7116, [_preFracLimitDenominator(n, d)], for any limit (music21's own
    function of this name is the same with another limit). *)
Definition preFracLimitDenominator (limit n d : Z) : option (Z * Z) :=
  if (d <=? limit)%Z then Some (n, d)
  else
    match lim_loop (Z.to_nat (2 * limit + 4)) limit n d 0 1 1 0 with
    | None => None
    | Some (p0, q0, p1, q1) =>
        let k := ((limit - q0) / q1)%Z in
        let b1n := (p0 + k * p1)%Z in
        let b1d := (q0 + k * q1)%Z in
        let s1n := Z.abs (b1n * d - n * b1d) in
        let s1d := (d * b1d)%Z in
        let s2n := Z.abs (p1 * d - n * q1) in
        let s2d := (d * q1)%Z in
        if (0 <=? s1n * s2d - s2n * s1d)%Z then Some (p1, q1) else Some (b1n, b1d)
    end.

Definition limit_denominator (limit : Z) (x : Q) : option Q :=
  match preFracLimitDenominator limit (qnum x) (Zpos (qden x)) with
  | Some (n, Zpos d) => Some (n # d)%Q
  | _ => None
  end.

(** meireader.py:227. *)
Definition DENOM_LIMIT : Z := 768.
(** music21's [opFrac]: the same with limit 65535. *)
Definition opFrac : Q -> option Q := limit_denominator 65535.

(** ** Writing *)

(** A decimal rounded half to even, as Python formats floats. *)
Definition round_half_even (x : Q) : Z :=
  let f := Qfloor x in
  match Qcompare (x - inject_Z f) (1 # 2) with
  | Lt => f
  | Gt => (f + 1)%Z
  | Eq => if Z.even f then f else (f + 1)%Z
  end.

(** The last [k] decimal digits of [n]. *)
Fixpoint last_digits (k : nat) (n : N) : str :=
  match k with
  | O => []
  | S k' => last_digits k' (n / 10) ++ [digit_char (n mod 10)]
  end.

Definition ten_to (k : nat) : N := (10 ^ N.of_nat k)%N.

(** [n / 10^k] in decimal notation with [k] digits after the point. *)
Definition fixed_point (k : nat) (n : N) : str :=
  show_N (n / ten_to k) ++ "."%char :: last_digits k n.

Fixpoint strip_zeros (s : str) : str :=
  match s with
  | [] => []
  | c :: r =>
      match strip_zeros r with
      | [] => if Ascii.eqb c "0" then [] else [c]
      | t => c :: t
      end
  end.

(** As [fixed_point], without zeros at the end and without a point at the end. *)
Definition short_point (k : nat) (n : N) : str :=
  match strip_zeros (last_digits k n) with
  | [] => show_N (n / ten_to k)
  | t => show_N (n / ten_to k) ++ "."%char :: t
  end.

(** [10^k x] rounded, for [x] not negative. *)
Definition decimals (k : nat) (x : Q) : N := Z.to_N (round_half_even (x * inject_Z (Z.of_N (ten_to k)))).

(** [round(f, 1)]. *)
Definition round1 (flt : Q -> Q) (f : Q) : Q := flt (Z.of_N (decimals 1 f) # 10)%Q.

(** How many digits [{:.6g}] has after the point. *)
Definition places6g (f : Q) : nat := 6 - length (show_N (Z.to_N (Qfloor f))).

(** m21objectconvert.py:812-831, [floatToStringWithDecimalPlacesMinMax(f, 1, 6)], for
    [1 <= f < 1000000] ([{:.6g}] gives six digits in all; above it would use an exponent). *)
Definition float_to_string (flt : Q -> Q) (f : Q) : str :=
  if Qeq_bool f (round1 flt f) then fixed_point 1 (decimals 1 f)
  else short_point (places6g f) (decimals (places6g f) f).

(** The denominator of the time signature in force, 4 if there is none
    (m21objectconvert.py:857-860, meireader.py:7144-7146). *)
Definition meter_denominator (m : option positive) : positive := match m with Some d => d | None => 4 end.

(** m21objectconvert.py:849-864, [_offsetToBeat]. *)
Definition offset_to_beat (flt : Q -> Q) (offset : Q) (m : option positive) : Q :=
  (flt (flt (flt (flt offset / 4) * inject_Z (Zpos (meter_denominator m))) + 1))%Q.

(** A stream of time signatures: offset in the score and denominator, in order of offsets;
    m21utilities.py:1656-1665, [getActiveTimeSigFromMeterStream]. *)
Fixpoint active_meter (meters : list (Q * positive)) (offset : Q) : option positive :=
  match meters with
  | [] => None
  | (o, d) :: r => if Qle_bool o offset then match active_meter r offset with Some e => Some e | None => Some d end else None
  end.

(** m21objectconvert.py:834-847, [makeTstamp]. *)
Definition makeTstamp (flt : Q -> Q) (in_score in_measure : Q) (meters : list (Q * positive)) : str :=
  float_to_string flt (offset_to_beat flt in_measure (active_meter meters in_score)).

(** m21objectconvert.py:956-973 and 980-985: the measures from the start measure on, with their
    offsets in the score and their lengths; gives the number of steps and the offset in the
    measure found ([opFrac] of the difference is taken as exact). *)
Fixpoint find_measure (ms : list (Q * Q)) (end_ : Q) : nat * Q :=
  match ms with
  | [] => (0, 0%Q)
  | (o, len) :: r =>
      if Qle_bool 0 (end_ - o)%Q && Qle_bool (end_ - o)%Q len then (0, (end_ - o)%Q)
      else let (n, x) := find_measure r end_ in (S n, x)
  end.

(** m21objectconvert.py:933-993, [makeTstamp2FromScoreOffset]. *)
Definition makeTstamp2 (flt : Q -> Q) (end_ : Q) (ms : list (Q * Q)) (meters : list (Q * positive)) : str :=
  let (n, x) := find_measure ms end_ in
  show_N (N.of_nat n) ++ S_ "m+" ++ float_to_string flt (offset_to_beat flt x (active_meter meters end_)).

(** ** Reading *)

(** [float(s)] for a numeral of digits with or without a point; other spellings that Python
    knows (exponents, signs, blanks, names) are taken as errors. *)
Definition read_decimal (s : str) : option Q :=
  let (a, r) := span is_digit s in
  match r with
  | [] => match a with [] => None | _ => Some (inject_Z (Z.of_N (parse_N a))) end
  | c :: b =>
      if Ascii.eqb c "." && forallb is_digit b && negb (Nat.eqb (length (a ++ b)) 0)
      then Some (Qmake (Z.of_N (parse_N (a ++ b))) (N.succ_pos (N.pred (ten_to (length b)))))
      else None
  end.

Definition bind {A B} (o : option A) (f : A -> option B) : option B := match o with Some x => f x | None => None end.

(** meireader.py:7118-7133, [tstampStrToOffsetQL]. *)
Definition tstampStrToOffsetQL (flt : Q -> Q) (s : str) : option Q :=
  bind (read_decimal s) (fun x => limit_denominator DENOM_LIMIT (flt x)).

(** meireader.py:7135-7153, [_beatToOffset]. *)
Definition beat_to_offset (flt : Q -> Q) (beat : Q) (m : option positive) : option Q :=
  bind (opFrac (flt (flt beat - 1)%Q)) (fun b =>
  bind (opFrac (flt (flt b / inject_Z (Zpos (meter_denominator m)))%Q)) (fun w =>
  opFrac (flt (flt w * 4)%Q))).

(** meireader.py:7062-7073, [_tstampToOffset]. *)
Definition tstampToOffset (flt : Q -> Q) (s : str) (m : option positive) : option Q :=
  match tstampStrToOffsetQL flt s with
  | None => Some 0%Q
  | Some beat => beat_to_offset flt beat m
  end.

(** [\s]. *)
Definition is_blank (c : ascii) : bool := char_in c (map ascii_of_N [9; 10; 11; 12; 13; 28; 29; 30; 31; 32; 133; 160]%N).

(** The first group of the pattern of meireader.py:7162, [([0-9]+)m\s*\+\s*]: the digits and
    the rest. *)
Definition match_skip (s : str) : option (str * str) :=
  let (a, r) := span is_digit s in
  match a, r with
  | _ :: _, c :: r1 =>
      if Ascii.eqb c "m" then
        match snd (span is_blank r1) with
        | p :: r2 => if Ascii.eqb p "+" then Some (a, snd (span is_blank r2)) else None
        | [] => None
        end
      else None
  | _, _ => None
  end.

(** The third and the fourth group, [[0-9]+] and [\.?[0-9]*]. *)
Definition match_beat (s : str) : option (str * str) :=
  let (a, r) := span is_digit s in
  match a with
  | [] => None
  | _ => Some (a, match r with
                  | c :: r1 => if Ascii.eqb c "." then c :: fst (span is_digit r1) else []
                  | [] => []
                  end)
  end.

(** [re.match] with the whole pattern: digits of the first group if it is there, whole number
    part and fraction part of the beat. *)
Definition match_tstamp2 (s : str) : option (option str * str * str) :=
  match match_skip s with
  | Some (a, r) =>
      match match_beat r with
      | Some (w, f) => Some (Some a, w, f)
      | None => match match_beat s with Some (w, f) => Some (None, w, f) | None => None end
      end
  | None => match match_beat s with Some (w, f) => Some (None, w, f) | None => None end
  end.

(** meireader.py:7155-7185, [_tstamp2ToMeasSkipAndOffset]. *)
Definition tstamp2ToMeasSkipAndOffset (flt : Q -> Q) (s : str) (m : option positive) : option (N * Q) :=
  match match_tstamp2 s with
  | None => Some (0%N, 0%Q)
  | Some (sk, w, f) =>
      let skip := match sk with Some a => parse_N a | None => 0%N end in
      match f with
      | [] => bind (beat_to_offset flt (inject_Z (Z.of_N (parse_N w))) m) (fun o => Some (skip, o))
      | _ =>
          match tstampStrToOffsetQL flt (w ++ f) with
          | None => Some (0%N, 0%Q)
          | Some beat => bind (beat_to_offset flt beat m) (fun o => Some (skip, o))
          end
      end
  end.

(** Where the importer puts the end (meireader.py:8508-8538, 8675-8690): so many measures after
    the start measure, at this offset in the measure. *)
Definition end_position (ms : list (Q * Q)) (r : N * Q) : option Q :=
  match nth_error ms (N.to_nat (fst r)) with
  | Some (o, _) => Some (o + snd r)%Q
  | None => None
  end.

(** ** Binary floating point *)

(** The double nearest to [x] (ties to even; no overflow, no subnormal numbers). *)
Definition double (x : Q) : Q :=
  if Qeq_bool x 0 then 0%Q
  else
    let a := Qabs x in
    let l := (Z.log2 (Qnum a) - Z.log2 (Zpos (Qden a)))%Z in
    let l' := if Qle_bool (if (0 <=? l)%Z then inject_Z (2 ^ l) else (1 # Z.to_pos (2 ^ (- l)))%Q) a then l else (l - 1)%Z in
    let k := (52 - l')%Z in
    let unit := if (0 <=? k)%Z then (1 # Z.to_pos (2 ^ k))%Q else inject_Z (2 ^ (- k)) in
    Qred (inject_Z (round_half_even (x / unit)) * unit)%Q.
