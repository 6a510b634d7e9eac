(** Model of the finding of tuplets in a layer of a Humdrum measure, and of the tuplets
    that the notes get (humdrum/humdrumfile.py).  Only the items of the layer that have
    a duration are modelled; the others take no part (4391-4413, 4772-4789). *)
From Coq Require Import ZArith QArith Qround.
From Verif Require Import PyStr RecipModel DurationModel.
Local Close Scope Q_scope.

(** An item: its duration in quarter notes, with and without dots; the number of its
    beam (0: none); the layout parameters [TUP:r], as a duration, and [TUP:num]; and
    whether a [*tupbreak] stands between the item before and this one
    ([_checkForTupletForcedBreak], humdrumfile.py:5488-5511). *)
Record item := mkI { i_dur : Q; i_nodots : Q; i_beam : nat; i_r : option Q; i_num : option Z; i_break : bool }.
(** [isPowerOfTwoWithoutDots] (humdrumfile.py:4434). *)
Definition plain (x : item) : bool := isPowerOfTwo (i_nodots x).
Definition sumDur (l : list item) : Q := fold_right (fun x s => (i_dur x + s)%Q) 0%Q l.

(** * Grouping. *)
(** [_getNumDotsForPowerOfTwo] gives a number of dots (humdrumfile.py:5561-5589). *)
Definition dotted (q : Q) : bool :=
  isPowerOfTwo q || isPowerOfTwo (q / (3 # 2))%Q || isPowerOfTwo (q / (7 # 4))%Q
  || isPowerOfTwo (q / (15 # 8))%Q || isPowerOfTwo (q / (31 # 16))%Q.
Definition inBeamB (b : nat) (x : item) : bool := i_beam x =? b.
(** The place of the last item of beam [b] ([beamEnds], humdrumfile.py:4451-4457). *)
Fixpoint lastOff (b : nat) (l : list item) : nat :=
  match l with
  | [] => 0
  | _ :: l' => if existsb (inBeamB b) l' then S (lastOff b l') else 0
  end.
(** [_findTupletEndByBeamWithDottedPow2Duration] (humdrumfile.py:5241-5276) for the item
    [x] with the items [pre] before it and [l] after it; the result is the number of
    items.  A beam's duration (4510-4512) is the sum of those of its items. *)
Definition beamLen (pre : list item) (x : item) (l : list item) : option nat :=
  let b := i_beam x in
  if (b =? 0) || existsb (inBeamB b) pre then None
  else
    let n := S (lastOff b (x :: l)) in
    let g := firstn n (x :: l) in
    if dotted (sumDur g) then if existsb plain g then None else Some n else None.
(** The loop for the end of the group (humdrumfile.py:4589-4616); [d] is [groupDur].
    The result: the number of items from the first, and whether start and end are
    forced. *)
Fixpoint scan (r : option Q) (d : Q) (l : list item) : nat * bool :=
  match l with
  | [] => (1, false)
  | y :: l' =>
      if plain y then (1, false)
      else if i_break y then (1, true)
      else
        let d' := (d + i_dur y)%Q in
        let hit := match r with Some q => Qle_bool q d' | None => isPowerOfTwo d' end in
        if hit then (2, match r with Some _ => true | None => false end)
        else let '(n, f) := scan r d' l' in (S n, f)
  end.
Definition groupLen (pre : list item) (x : item) (l : list item) : nat * bool :=
  match i_r x with
  | None => match beamLen pre x l with Some n => (n, false) | None => scan None (i_dur x) l end
  | Some r => scan (Some r) (i_dur x) l
  end.
(** The numbers of the groups and the forced starts and ends
    (humdrumfile.py:4543-4623). *)
Definition block (num n : nat) (f : bool) : list (nat * bool) :=
  map (fun i => (num, f && ((i =? 0) || (i =? n - 1)))) (seq 0 n).
Fixpoint groupsFrom (fuel : nat) (pre : list item) (num : nat) (l : list item) : list (nat * bool) :=
  match fuel, l with
  | S fuel', x :: l' =>
      if plain x then (0, false) :: groupsFrom fuel' (pre ++ [x]) num l'
      else
        let '(n, f) := groupLen pre x l' in
        block num n f ++ groupsFrom fuel' (pre ++ firstn n l) (S num) (skipn n l)
  | _, _ => []
  end.
Definition groups (l : list item) : list (nat * bool) := groupsFrom (length l) [] 1 l.

(** * Ratios (humdrumfile.py:4653-4689). *)
(** [_nextHigherPowerOfTwo] (5523-5529), for numbers between 0 and 1; the logarithms are
    taken as exact. *)
Definition nextHigher (q : Q) : Q := (/ inject_Z (2 ^ Z.log2 (Zpos (qden q) / qnum q)))%Q.
(** For longer durations the numbers of notes are still -1 when they are used, so that
    the power of two is always 1 (4662-4664). *)
Definition ratio (x : item) : Z * Z * Q :=
  let w := (i_nodots x / 4)%Q in
  let p := if Qle_bool 1 w then 1%Q else nextHigher w in
  let p := if (qnum w =? 3)%Z && isPowerOfTwo (inject_Z (Zpos (qden w))) then (p / 2)%Q else p in
  let m := (w / p)%Q in
  if (qnum w =? 4)%Z && (qden w =? 3)%positive then (Zpos (qden m), 2%Z, (2 # qden m)%Q)
  else (Zpos (qden m), qnum m, m).

(** An item with what is found out about it: [tupletStartBoolean], [tupletEndBoolean],
    [numNotesActual], [numNotesNormal], [tupletMultiplier], [numScale]. *)
Record cell := mkC { c_item : item; c_grp : nat; c_force : bool; c_st : nat; c_en : nat; c_act : Z; c_nor : Z; c_mul : Q; c_scale : Z }.
Definition set_grp c g := mkC (c_item c) g (c_force c) (c_st c) (c_en c) (c_act c) (c_nor c) (c_mul c) (c_scale c).
Definition set_st c s := mkC (c_item c) (c_grp c) (c_force c) s (c_en c) (c_act c) (c_nor c) (c_mul c) (c_scale c).
Definition set_en c e := mkC (c_item c) (c_grp c) (c_force c) (c_st c) e (c_act c) (c_nor c) (c_mul c) (c_scale c).
Definition set_nums c a n := mkC (c_item c) (c_grp c) (c_force c) (c_st c) (c_en c) a n (c_mul c) (c_scale c).
Definition set_scale c k := mkC (c_item c) (c_grp c) (c_force c) (c_st c) (c_en c) (c_act c) (c_nor c) (c_mul c) k.

(** Starts and ends of the groups (humdrumfile.py:4625-4644) and their ratios. *)
Fixpoint cells (seen : list nat) (gs : list (nat * bool)) (l : list item) : list cell :=
  match gs, l with
  | (g, f) :: gs', x :: l' =>
      let st := if (g =? 0) || existsb (Nat.eqb g) seen then 0 else g in
      let en := if (g =? 0) || existsb (fun h => fst h =? g) gs' then 0 else g in
      let '(a, n, m) := if g =? 0 then ((-1)%Z, (-1)%Z, 1%Q) else ratio x in
      mkC x g f st en a n m 1 :: cells (g :: seen) gs' l'
  | _, _ => []
  end.

(** Splitting of groups at changes of the ratio (humdrumfile.py:4691-4711); [k] is
    [correction], [p] the cell before. *)
Definition no_ratio (c : cell) : bool :=
  ((c_act c =? 1) && (c_nor c =? 1) || (c_act c =? -1) && (c_nor c =? -1))%Z.
Fixpoint adjust (k : nat) (p : cell) (l : list cell) : list cell :=
  match l with
  | [] => [p]
  | x :: l' =>
      if no_ratio x || no_ratio p then p :: adjust k x l'
      else if negb (c_act x =? c_act p)%Z || negb (c_nor x =? c_nor p)%Z then
        if c_grp x =? c_grp p then
          set_en p (c_grp x) :: adjust (S k) (set_grp (set_st x (c_grp x + S k)) (c_grp x + S k)) l'
        else p :: adjust k (set_grp x (c_grp x + k)) l'
      else p :: adjust k (set_grp x (c_grp x + k)) l'
  end.
Definition adjusted (l : list cell) : list cell := match l with [] => [] | p :: l' => adjust 0 p l' end.
(** humdrumfile.py:4713-4716. *)
Definition positive_act (c : cell) : cell := if (c_act c <? 0)%Z then set_nums c (- c_act c) (c_nor c) else c.
(** Renumbering (humdrumfile.py:4813-4824). *)
Fixpoint renumber (k : nat) (l : list cell) : list cell :=
  match l with
  | [] => []
  | c :: l' =>
      if negb (c_st c =? 0) then set_st c (S k) :: renumber (S k) l'
      else if negb (c_en c =? 0) then set_en c k :: renumber k l'
      else c :: renumber k l'
  end.

(** * Merging of tuplets within a beam: [_mergeTupletsCuttingBeam]
    (humdrumfile.py:5101-5178). *)
Definition beamsOf (l : list cell) : list item := map c_item l.
(** [beamStart] and [beamEnd] (4459-4466): the number of the beam at its first and at
    its last item. *)
Definition bStart (pre : list item) (x : item) : bool := negb (i_beam x =? 0) && negb (existsb (inBeamB (i_beam x)) pre).
Definition bEnd (x : item) (post : list item) : bool := negb (i_beam x =? 0) && negb (existsb (inBeamB (i_beam x)) post).
Fixpoint inBeams (prev : bool) (pre : list item) (l : list cell) : list bool :=
  match l with
  | [] => []
  | c :: l' =>
      let b := if c_force c then false
               else if bStart pre (c_item c) then true
               else if bEnd (c_item c) (map c_item l') then false
               else prev in
      b :: inBeams b (pre ++ [c_item c]) l'
  end.
(** The loops over the items before and after; the first list is in reverse order. *)
Fixpoint setBack (t : nat) (a n : Z) (l : list cell) : list cell :=
  match l with
  | [] => []
  | c :: l' => set_nums c a n :: (if c_st c =? t then l' else setBack t a n l')
  end.
Fixpoint setFwd (t : nat) (a n : Z) (l : list cell) : list cell :=
  match l with
  | [] => []
  | c :: l' => set_nums c a n :: (if negb (c_en c =? 0) && (c_en c =? t) then l' else setFwd t a n l')
  end.
Definition lower (c : cell) : cell :=
  let c := if c_st c =? 0 then c else set_st c (c_st c - 1) in
  if c_en c =? 0 then c else set_en c (c_en c - 1).
Definition on_hd (f : cell -> cell) (l : list cell) : list cell := match l with [] => [] | c :: l' => f c :: l' end.
Definition on_tl (f : cell -> cell) (l : list cell) : list cell := match l with [] => [] | c :: l' => c :: map f l' end.
Definition mergeAt (ib : list bool) (l : list cell) (i : nat) : list cell :=
  match rev (firstn (S i) l), skipn (S i) l with
  | c :: back, d :: fwd =>
      if nth i ib false && negb (c_en c =? 0) && negb (c_st d =? 0) && Qeq_bool (c_mul c) (c_mul d) then
        let a := (c_act c + c_act d)%Z in
        let n := (c_nor c + c_nor d)%Z in
        let back' := setBack (c_en c) a n (c :: back) in
        let fwd' := setFwd (c_st d) a n (d :: fwd) in
        rev (on_hd (fun c => set_en c 0) back') ++ on_tl lower (on_hd (fun d => set_st d 0) fwd')
      else l
  | _, _ => l
  end.
Definition merged (l : list cell) : list cell := fold_left (mergeAt (inBeams false [] l)) (seq 0 (length l)) l.
(** The groups anew (5166-5174). *)
Fixpoint regroup (cur : nat) (l : list cell) : list cell :=
  match l with
  | [] => []
  | c :: l' =>
      let cur := if c_st c =? 0 then cur else c_st c in
      set_grp c cur :: regroup (if c_en c =? 0 then cur else 0) l'
  end.

(** * Scaling of the numbers: [_assignScalingToTupletGroup] (humdrumfile.py:4975-5080). *)
Fixpoint count (q : Q) (l : list (Q * nat)) : list (Q * nat) :=
  match l with
  | [] => [(q, 1)]
  | (p, k) :: l' => if Qeq_bool p q then (p, S k) :: l' else (p, k) :: count q l'
  end.
Definition counts (g : list cell) : list (Q * nat) := fold_left (fun l c => count (i_nodots (c_item c)) l) g [].
(** The new scale, or the new numbers. *)
Inductive scaling := Scale (k : Z) | Nums (a n : Z).
Definition by_count (k : nat) (a : Z) : scaling :=
  let s := (inject_Z (Z.of_nat k) / inject_Z a)%Q in
  if (qden s =? 1)%positive && (1 <? qnum s)%Z then Scale (qnum s) else Scale 1.
Definition maxQ (a b : Q) : Q := if Qle_bool b a then a else b.
Definition scaling_of (g : list cell) : scaling :=
  match g with
  | [] => Scale 1
  | first :: _ =>
      let rest :=
        match counts g with
        | [(_, k)] => by_count k (c_act first)
        | cs =>
            let longest := (
              let total := sumDur (map c_item g) in
              let a := (total / fold_left maxQ (map fst cs) 0)%Q in
              let n := (a * c_mul first)%Q in
              if (qden a =? 1)%positive && (1 <? qnum a)%Z && (qden n =? 1)%positive && (1 <? qnum n)%Z
              then Nums (qnum a) (qnum n) else Scale 1) in
            match cs with
            | [(_, j); (_, k)] => if j =? k then by_count j (c_act first) else longest
            | _ => longest
            end
        end in
      match i_num (c_item first) with
      | Some v =>
          let s := (inject_Z v / inject_Z (c_act first))%Q in
          if (0 <? v)%Z && (qden s =? 1)%positive && (1 <=? qnum s)%Z then Scale (qnum s) else rest
      | None => rest
      end
  end.
Definition scaled (s : scaling) (c : cell) : cell :=
  match s with
  | Scale k => set_scale c k
  | Nums a n => set_scale (set_nums c a n) 1
  end.
(** [_assignTupletScalings] (4946-4973). *)
Definition assignScalings (l : list cell) : list cell :=
  map (fun c => if c_grp c =? 0 then c else scaled (scaling_of (filter (fun d => c_grp d =? c_grp c) l)) c) l.

(** * All of [_prepareBeamAndTupletGroups] (humdrumfile.py:4367-4840).  Without a tuplet
    it returns early (4491-4506); then the items have no starts and ends of tuplets, as
    here. *)
Definition prepare (l : list item) : list cell :=
  assignScalings (regroup 0 (merged (renumber 0 (map positive_act (adjusted (cells [] (groups l) l)))))).

(** * The tuplets of the notes: [_handleGroupState] (humdrumfile.py:3408-3427) and
    [_makeTuplet] (3468-3485).  A tuplet: its numbers and its place. *)
Inductive place := PStart | PMiddle | PStop.
Fixpoint notesFrom (t : option (Z * Z)) (l : list cell) : list (option (Z * Z * place)) :=
  match l with
  | [] => []
  | c :: l' =>
      if negb (c_st c =? 0) then
        let t := (c_act c * c_scale c, c_nor c * c_scale c)%Z in
        Some (t, PStart) :: notesFrom (Some t) l'
      else match t with
           | None => None :: notesFrom None l'
           | Some t => if negb (c_en c =? 0) then Some (t, PStop) :: notesFrom None l'
                       else Some (t, PMiddle) :: notesFrom (Some t) l'
           end
  end.
Definition tupletsOf (l : list item) : list (option (Z * Z * place)) := notesFrom None (prepare l).
(** The undotted length and the dots of a note with a tuplet that music21 did not find
    itself: [m21DurationWithTuplet] (m21convert.py:626-645), without a visual duration.
    No number of dots: [convertQuarterLengthToType] raises an exception. *)
Definition shownAs (x : item) (t : Z * Z) : option (Q * nat) :=
  match computeDurationNoDotsAndNumDots (i_dur x / (inject_Z (snd t) / inject_Z (fst t)))%Q with
  | (d, Some k) => Some (d, k)
  | (_, None) => None
  end.
