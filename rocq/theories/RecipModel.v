(** Model of the rhythm ( **recip ) text functions.

    Numbers: Python's [HumNum] (float or Fraction normalised by music21's
    [opFrac]) is an exact rational [Q]; [opFrac] is the identity on values.
    Where the code reads [.numerator]/[.denominator] the model uses [Qred]. *)
From Verif Require Import PyStr.
From Coq Require Import QArith Qreduction.
Local Close Scope Q_scope.

(** Numerator and denominator of the reduced fraction, as
    [Fraction(x).numerator] / [.denominator]. *)
Definition qnum (q : Q) : Z := Qnum (Qred q).
Definition qden (q : Q) : positive := Qden (Qred q).

(** [Fraction(n, d)]; [None] is ZeroDivisionError. *)
Definition mk_frac (n d : N) : option Q :=
  match d with
  | N0 => None
  | Npos p => Some (Z.of_N n # p)%Q
  end.

(** [re.search(r'([\d]+)%([\d]+)', s)]: leftmost match; both groups are maximal
    digit runs (a shorter first group could only be followed by a digit).
    convert.py:66 *)
Definition match_pct (s : str) : option (str * str) :=
  match span is_digit s with
  | (c :: g1, "%"%char :: s') =>
      match span is_digit s' with
      | (d :: g2, _) => Some (c :: g1, d :: g2)
      | ([], _) => None
      end
  | _ => None
  end.
Fixpoint search_pct (s : str) : option (str * str) :=
  match s with
  | [] => None
  | _ :: s' => match match_pct s with Some r => Some r | None => search_pct s' end
  end.

(** [re.search(r'([\d]+)', s)]: first maximal digit run.  convert.py:71 *)
Fixpoint search_digits (s : str) : option str :=
  match s with
  | [] => None
  | c :: s' => if is_digit c then Some (fst (span is_digit s)) else search_digits s'
  end.

(** [s.split(' ')[0]] *)
Definition first_subtoken (s : str) : str := hd [] (split_char " "%char s).

(** convert.py:87-98: (2^(n+1) - 1) / 2^n; 1 when there are no dots. *)
Definition dot_factor (n : nat) : Q :=
  (inject_Z (2 ^ (Z.of_nat n + 1) - 1) / inject_Z (2 ^ Z.of_nat n))%Q.

Inductive recip_result :=
| NoRhythm            (* returns 0, does not fill the cache *)
| Rhythm (q : Q)      (* returns q and caches it *)
| RhythmError.        (* raises ZeroDivisionError *)

(** convert.py:57-102, [Convert.recipToDuration] after a cache miss. *)
Definition recip_eval (recip : str) (scale : Q) : recip_result :=
  if char_in "q"%char recip then Rhythm 0%Q
  else
    let sub := first_subtoken recip in
    let dots := count_char "."%char sub in
    match search_pct sub with
    | Some (g1, g2) =>
        match mk_frac (parse_N g2) (parse_N g1) with
        | None => RhythmError
        | Some q => Rhythm (q * dot_factor dots * scale)%Q
        end
    | None =>
        match search_digits sub with
        | None => NoRhythm
        | Some g =>
            match g with
            | "0"%char :: _ =>
                Rhythm (inject_Z (2 ^ Z.of_nat (count_char "0"%char g)) * dot_factor dots * scale)%Q
            | _ =>
                match mk_frac 1 (parse_N g) with
                | None => RhythmError
                | Some q => Rhythm (q * dot_factor dots * scale)%Q
                end
            end
        end
    end.

(** The class-level dictionary [_knownRecipDurationCache] (convert.py:50). *)
Definition recip_cache := list (str * Q).

Fixpoint cache_get (c : recip_cache) (k : str) : option Q :=
  match c with
  | [] => None
  | (k', v) :: c' => if str_eqb k k' then Some v else cache_get c' k
  end.

(** convert.py:52-102.  Result: what the call returns ([None]: it raises) and
    the cache afterwards. *)
Definition recipToDuration (c : recip_cache) (recip : str) (scale : Q)
  : option Q * recip_cache :=
  match cache_get c recip with
  | Some v => (Some v, c)
  | None =>
      match recip_eval recip scale with
      | NoRhythm => (Some 0%Q, c)
      | Rhythm q => (Some q, (recip, q) :: c)
      | RhythmError => (None, c)
      end
  end.

(** convert.py:110-113 *)
Definition recipToDurationNoDots (c : recip_cache) (recip : str) (scale : Q)
  : option Q * recip_cache :=
  recipToDuration c (map (fun ch => if Ascii.eqb ch "." then "Z"%char else ch) recip) scale.

(** The cache after a history of calls, starting from a fresh process. *)
Definition run_recip (h : list (str * Q)) : recip_cache :=
  fold_left (fun c call => snd (recipToDuration c (fst call) (snd call))) h [].

Definition show_pos (p : positive) : str := show_N (Npos p).

(** convert.py:149-197, [Convert.durationToRecip].  For negative durations
    [str] of the numerator carries a minus sign, as in Python. *)
Definition durationToRecip (duration : Q) : str :=
  let dur := (duration / 4)%Q in
  if (qnum dur =? 1)%Z then show_pos (qden dur)
  else if Qeq_bool dur 2 then S_ "0"
  else if Qeq_bool dur 3 then S_ "0."
  else if Qeq_bool dur 4 then S_ "00"
  else if Qeq_bool dur 6 then S_ "00."
  else if Qeq_bool dur 8 then S_ "000"
  else if Qeq_bool dur 12 then S_ "000."
  else if (qnum dur =? 0)%Z then S_ "q"
  else
    let t1 := (dur * (2 # 3))%Q in
    if (qnum t1 =? 1)%Z then show_pos (qden t1) ++ S_ "."
    else
    let t2 := (dur * (4 # 7))%Q in
    if (qnum t2 =? 1)%Z then show_pos (qden t2) ++ S_ ".."
    else
    let t3 := (dur * (8 # 15))%Q in
    if (qnum t3 =? 1)%Z then show_pos (qden t3) ++ S_ "..."
    else show_pos (qden dur) ++ S_ "%" ++ show_Z (qnum dur).

(** gridslice.py:186-213, [GridSlice._createRecipTokenFromDuration] (token text). *)
Definition createRecipTokenFromDuration (duration : Q) : str :=
  let dur := (duration / 4)%Q in
  let plain := show_pos (qden dur) ++ S_ "%" ++ show_Z (qnum dur) in
  if (qnum dur =? 0)%Z then S_ "g"
  else if (qnum dur =? 1)%Z then show_pos (qden dur)
  else if (qnum dur mod 3 =? 0)%Z then
    let dd := (dur * (2 # 3))%Q in
    if (qnum dd =? 1)%Z then show_pos (qden dd) ++ S_ "." else plain
  else plain.

(** m21utilities.py:1190-1200, [isPowerOfTwo]. *)
Definition isPowerOfTwo (q : Q) : bool :=
  let n := qnum q in
  let d := Zpos (qden q) in
  if (n =? 0)%Z then false
  else
    let a := Z.abs n in
    if (d =? 1)%Z then (Z.land a (a - 1) =? 0)%Z
    else if (a =? 1)%Z then (Z.land d (d - 1) =? 0)%Z
    else false.

(** m21utilities.py:1202-1217, [isPowerOfTwoWithDots]. *)
Definition isPowerOfTwoWithDots (ql : Q) : bool :=
  isPowerOfTwo ql || isPowerOfTwo (ql * (2 # 3))%Q
  || isPowerOfTwo (ql * (4 # 7))%Q || isPowerOfTwo (ql * (8 # 15))%Q.

(** The parts of a music21 Duration that [kernRecipFromM21Duration] reads.
    Simplification: [d_typeQL] is [convertTypeToQuarterLength(duration.type)];
    a tuplet is its multiplier. *)
Record m21_duration := {
  d_isGrace : bool;
  d_linked : bool;
  d_typeQL : Q;
  d_dots : nat;
  d_tuplets : list Q;
  d_quarterLength : Q
}.

(** m21convert.py:1583-1619: rewriting of 'n%m' texts.  [first]/[second]/[dots]
    are the groups of the regex digits, percent, digits, dots, which here is the whole of
    [out]; [str.replace] therefore replaces the whole text. *)
Definition rewrite_pct (inTuplet : bool) (first second : N) (dots : str) (out : str) : str :=
  let is2 := fun k : N => N.eqb first 1 && N.eqb second k in
  match dots with
  | [] =>
      if is2 2%N then S_ "0"
      else if is2 4%N then S_ "00"
      else if is2 8%N then S_ "000"
      else if is2 16%N then S_ "0000"
      else if is2 3%N && negb inTuplet then S_ "0."
      else if is2 6%N && negb inTuplet then S_ "00."
      else if is2 12%N && negb inTuplet then S_ "000."
      else if is2 24%N && negb inTuplet then S_ "0000."
      else out
  | _ =>
      if is2 2%N then S_ "0" ++ dots
      else if is2 4%N then S_ "00" ++ dots
      else if is2 8%N then S_ "000" ++ dots
      else if is2 16%N then S_ "0000" ++ dots
      else out
  end.

(** m21convert.py:1508-1640, [kernRecipFromM21Duration], first component of the
    result (the rhythm that sounds; the visual duration is not modelled).
    The numerator of a duration is assumed non-negative (music21 durations are);
    [recipToDuration] at 1626 is the cache-free evaluation at the default scale
    (all calls in the package use it; see C02). *)
Definition kernRecipFromM21Duration (d : m21_duration) : str :=
  let '(dur0, dots0, inTuplet) :=
    if d_isGrace d then (d_typeQL d, Some [], false)
    else match d_linked d, d_tuplets d with
         | false, [_] => (d_quarterLength d, None, true)
         | false, _ => (d_quarterLength d, None, false)
         | true, [m] => ((d_typeQL d * m)%Q, Some (rep "." (d_dots d)), true)
         | true, _ => (d_quarterLength d, None, false)
         end in
  let dur := (dur0 / 4)%Q in
  let '(durFraction, dots) :=
    match dots0 with
    | None =>
        if inTuplet then (dur, [])
        else if (qnum dur =? 1)%Z then (dur, [])
        else if (qnum (dur * 2 / 3) =? 1)%Z then ((dur * 2 / 3)%Q, S_ ".")
        else if (qnum (dur * 4 / 7) =? 1)%Z then ((dur * 4 / 7)%Q, S_ "..")
        else if (qnum (dur * 8 / 15) =? 1)%Z then ((dur * 8 / 15)%Q, S_ "...")
        else (dur, [])
    | Some s => (dur, s)
    end in
  let out1 :=
    if (qnum durFraction =? 1)%Z then show_pos (qden durFraction) ++ dots
    else rewrite_pct inTuplet (Npos (qden durFraction)) (Z.to_N (qnum durFraction)) dots
           (show_pos (qden durFraction) ++ S_ "%" ++ show_Z (qnum durFraction) ++ dots) in
  if inTuplet then
    let noDots := hd [] (split_char "." out1) in
    match recip_eval noDots 4 with
    | Rhythm durNoDots =>
        if isPowerOfTwo durNoDots
        then durationToRecip (durNoDots / (3 # 2))%Q ++ rep "." (count_char "." out1 + 1)
        else out1
    | _ => out1
    end
  else out1.
