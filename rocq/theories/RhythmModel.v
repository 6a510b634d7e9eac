(** Model of the rhythm analysis of humdrumfilestructure.py, in the strict mode
    [acceptSyntaxErrors = False] (the default).

    [opFrac] is the identity on exact rationals; a time is an unreduced [Q]
    compared with [Qeq_bool]/[Qle_bool].  The value -1 for "no time" is kept, as
    in the code. *)
From Verif Require Import PyStr RecipModel LayoutModel TextModel SpineModel.
From Coq Require Import QArith.
Local Close Scope Q_scope.

Definition Qlt_bool (a b : Q) : bool := negb (Qle_bool b a).
Definition neg_q (a : Q) : bool := Qlt_bool a 0.

(** What the analysis reads of a line: [hasSpines], [isBarline], [isData]
    (humdrumline.py:524-550) and [isAllRhythmicNull] (humdrumline.py:578-588). *)
Record rline := mkLine { l_spines : bool; l_barline : bool; l_data : bool; l_allnull : bool }.

(** What the analysis reads of a file: its lines, the links between tokens
    ([nextTokens]), token durations ([HumdrumToken.duration]; -1 when undefined),
    [isTerminateInterpretation], [hasRhythm] and the track starts. *)
Record rfile := mkFile {
  rf_lines : list rline;
  rf_next : tokref -> list tokref;
  rf_dur : tokref -> Q;
  rf_term : tokref -> bool;
  rf_rhythm : tokref -> bool;
  rf_starts : list (option tokref)
}.

(** [durationFromStart] of every line, [rhythmAnalysisState] of every token,
    [isValid]. *)
Record rstate := mkRS { rs_start : list Q; rs_seen : tokref -> nat; rs_valid : bool }.

Definition start_of (st : rstate) (t : tokref) : Q := nth (fst t) (rs_start st) (-1)%Q.

Fixpoint upd {A} (i : nat) (v : A) (l : list A) : list A :=
  match l, i with
  | [], _ => []
  | _ :: l', O => v :: l'
  | x :: l', S i' => x :: upd i' v l'
  end.

Definition set_start (i : nat) (v : Q) (st : rstate) : rstate :=
  mkRS (upd i v (rs_start st)) (rs_seen st) (rs_valid st).
Definition parse_error (st : rstate) : rstate := mkRS (rs_start st) (rs_seen st) false.
(** [incrementRhythmAnalysisState]. *)
Definition bump (t : tokref) (st : rstate) : rstate :=
  mkRS (rs_start st) (fun x => if ref_eqb x t then S (rs_seen st x) else rs_seen st x) (rs_valid st).

Definition Qmax (a b : Q) : Q := if Qle_bool a b then b else a.

Section Walk.
  Variable f : rfile.

  (** [setLineDurationFromStart] (humdrumfilestructure.py:505-533), strict mode. *)
  Definition setLineDurationFromStart (t : tokref) (d : Q) (st : rstate) : rstate :=
    if negb (rf_term f t) && neg_q (rf_dur f t) then st
    else if Qeq_bool (start_of st t) (-1) then set_start (fst t) d st
    else if Qeq_bool (start_of st t) d then st
    else if rf_term f t then set_start (fst t) (Qmax (start_of st t) d) st
    else parse_error st.

  (** [if token.duration > 0: durSum += token.duration]. *)
  Definition advance (t : tokref) (d : Q) : Q :=
    if Qlt_bool 0 (rf_dur f t) then (d + rf_dur f t)%Q else d.

  (** The part of [prepareDurations] that follows the primary track
      (humdrumfilestructure.py:437-484): visit [t] and then first successors
      until a token already visited; collects the other successors.  The first
      visit has the same test and the same steps as those of the loop.
      [isValid] false on return of setLineDurationFromStart ends the call. *)
  Fixpoint walk (fuel : nat) (t : tokref) (state : nat) (d : Q) (res : list (tokref * Q)) (st : rstate)
    : option (list (tokref * Q) * rstate) :=
    match fuel with
    | O => None
    | S fuel' =>
        if negb (state =? rs_seen st t) then Some (res, st)
        else
          let st1 := setLineDurationFromStart t d (bump t st) in
          if negb (rs_valid st1) then Some ([], st1)
          else
            let d1 := advance t d in
            match rf_next f t with
            | [] =>
                Some (if rf_term f t
                      then let st2 := setLineDurationFromStart t d1 st1 in
                           (if rs_valid st2 then res else [], st2)
                      else (res, st1))
            | n0 :: ns => walk fuel' n0 state d1 (res ++ map (fun n => (n, d1)) ns) st1
            end
    end.

  (** [prepareDurations] (humdrumfilestructure.py:437-497); [None]: out of fuel
      (RhythmProofs shows that the number of lines is enough). *)
  Fixpoint prepareDurations (fuel : nat) (t : tokref) (state : nat) (d : Q) (st : rstate) : option rstate :=
    match fuel with
    | O => None
    | S fuel' =>
        match walk (S (length (rf_lines f))) t state d [] st with
        | None => None
        | Some (res, st1) =>
            fold_left (fun o e => match o with
                                  | None => None
                                  | Some s => prepareDurations fuel' (fst e) state (snd e) s
                                  end) (rev res) (Some st1)
        end
    end.

  (** [assignDurationsToTrack] (humdrumfilestructure.py:423-432). *)
  Definition assignDurationsToTrack (t : tokref) (d : Q) (st : rstate) : option rstate :=
    if rf_rhythm f t then prepareDurations (S (length (rf_lines f))) t (rs_seen st t) d st
    else Some st.

  (** The search of [analyzeRhythmOfFloatingSpine] (humdrumfilestructure.py:551-561):
      (foundDur, durSum). *)
  Fixpoint find_known (fuel : nat) (t : tokref) (durSum : Q) (st : rstate) : option (Q * Q) :=
    match fuel with
    | O => None
    | S fuel' =>
        if negb (neg_q (start_of st t)) then Some (start_of st t, durSum)
        else
          let durSum' := advance t durSum in
          match rf_next f t with
          | [] => Some (0%Q, durSum')
          | n0 :: _ => find_known fuel' n0 durSum' st
          end
    end.

  (** [analyzeRhythmOfFloatingSpine] (humdrumfilestructure.py:545-570). *)
  Definition analyzeRhythmOfFloatingSpine (t : tokref) (st : rstate) : option rstate :=
    match find_known (S (length (rf_lines f))) t 0%Q st with
    | None => None
    | Some (found, durSum) =>
        if Qeq_bool found 0 then Some (parse_error st)
        else assignDurationsToTrack t (found - durSum)%Q st
    end.

  (** A loop over the track starts that stops at the first failure
      (humdrumfilestructure.py:246-279). *)
  Fixpoint over_starts (g : tokref -> rstate -> option rstate) (ts : list (option tokref)) (st : rstate) : option rstate :=
    match ts with
    | [] => Some st
    | None :: ts' => over_starts g ts' st
    | Some t :: ts' =>
        match g t st with
        | None => None
        | Some st' => if rs_valid st' then over_starts g ts' st' else Some st'
        end
    end.

  Definition initial : rstate := mkRS (repeat (-1)%Q (length (rf_lines f))) (fun _ => 0) true.

  (** The first loop: tracks that start on the line of track 1; the second loop:
      the other, later ones. *)
  Definition first_pass (startLine : nat) (t : tokref) (st : rstate) : option rstate :=
    if rf_rhythm f t && (fst t =? startLine) then assignDurationsToTrack t 0%Q st else Some st.
  Definition second_pass (startLine : nat) (t : tokref) (st : rstate) : option rstate :=
    if rf_rhythm f t && (startLine <? fst t) then analyzeRhythmOfFloatingSpine t st else Some st.
End Walk.

(** [analyzeNullLineRhythms] (humdrumfilestructure.py:582-639); [i] is the index
    of the first of [lines], [prev] is [previousLine], [nulls] is [nullLines].
    [None]: parse error. *)
Fixpoint spread (startDur nullDur : Q) (j : nat) (nulls : list nat) (starts : list Q) : list Q :=
  match nulls with
  | [] => starts
  | n :: nulls' =>
      spread startDur nullDur (S j) nulls' (upd n (startDur + nullDur * inject_Z (Z.of_nat j + 1))%Q starts)
  end.
Fixpoint null_loop (i : nat) (lines : list rline) (prev : option nat) (nulls : list nat) (starts : list Q)
  : option (list Q) :=
  match lines with
  | [] => Some starts
  | l :: ls =>
      if negb (l_spines l) then null_loop (S i) ls prev nulls starts
      else
        let prev := if l_barline l then None else prev in
        let nulls := if l_barline l then [] else nulls in
        if l_allnull l then null_loop (S i) ls prev (if l_data l then nulls ++ [i] else nulls) starts
        else if neg_q (nth i starts (-1)%Q) then
          if l_data l then None else null_loop (S i) ls prev nulls starts
        else
          match prev with
          | None => null_loop (S i) ls (Some i) [] starts
          | Some p =>
              let startDur := nth p starts (-1)%Q in
              let endDur := nth i starts (-1)%Q in
              let nullDur := ((endDur - startDur) / inject_Z (Z.of_nat (length nulls) + 1))%Q in
              null_loop (S i) ls (Some i) [] (spread startDur nullDur 0 nulls starts)
          end
  end.
Definition analyzeNullLineRhythms (lines : list rline) (starts : list Q) : option (list Q) :=
  null_loop 0 lines None [] starts.

(** [fillInMissingStartTimes] (humdrumfilestructure.py:650-664): the backward
    loop (with the value of [lastDur] it leaves) and the forward loop. *)
Fixpoint fill_back (l : list Q) : list Q * Q :=
  match l with
  | [] => ([], (-1)%Q)
  | d :: l' =>
      let (r, lastDur) := fill_back l' in
      let d' := if neg_q d && negb (neg_q lastDur) then lastDur else d in
      (d' :: r, if negb (neg_q d') then d' else lastDur)
  end.
Fixpoint fill_forward (lastDur : Q) (l : list Q) : list Q :=
  match l with
  | [] => []
  | d :: l' => if negb (neg_q d) then d :: fill_forward d l' else lastDur :: fill_forward lastDur l'
  end.
Definition fillInMissingStartTimes (l : list Q) : list Q :=
  let (r, lastDur) := fill_back l in fill_forward lastDur r.

(** The setter of [HumdrumLine.duration] (humdrumline.py:633-637). *)
Definition clamp (d : Q) : Q := if Qle_bool 0 d then d else 0%Q.

(** [assignLineDurations] (humdrumfilestructure.py:672-679). *)
Fixpoint assignLineDurations (starts : list Q) : list Q :=
  match starts with
  | [] => []
  | [_] => [0%Q]
  | a :: ((b :: _) as l') => clamp (b - a)%Q :: assignLineDurations l'
  end.

(** [scoreDuration] (humdrumfilestructure.py:137-143). *)
Definition scoreDuration (starts durs : list Q) : Q :=
  match starts with [] => 0%Q | _ => (last starts (-1) + last durs (-1))%Q end.

(** [analyzeRhythm] (humdrumfilestructure.py:234-288): the start times and the
    durations of the lines; [None]: parse error.  [trackStart(1)] missing is a
    failure; a file without tracks is left alone. *)
Inductive rhythm_result :=
| RhythmOk (starts durs : list Q)
| RhythmFailed
| RhythmLoop.

Definition walk_result (f : rfile) : option rstate :=
  match tl (rf_starts f) with
  | None :: _ => Some (parse_error (initial f))
  | [] => Some (initial f)
  | Some t1 :: _ =>
      match over_starts (first_pass f (fst t1)) (tl (rf_starts f)) (initial f) with
      | None => None
      | Some st =>
          if rs_valid st then over_starts (second_pass f (fst t1)) (tl (rf_starts f)) st else Some st
      end
  end.

Definition analyzeRhythm (f : rfile) : rhythm_result :=
  match walk_result f with
  | None => RhythmLoop
  | Some st =>
      if negb (rs_valid st) then RhythmFailed
      else match analyzeNullLineRhythms (rf_lines f) (rs_start st) with
           | None => RhythmFailed
           | Some starts =>
               let starts' := fillInMissingStartTimes starts in
               RhythmOk starts' (assignLineDurations starts')
           end
  end.

(** [assignRhythmFromRecip] (humdrumfilestructure.py:199-205): start times from
    line durations ([None]: not set; a negative one becomes zero). *)
Fixpoint recip_starts (total : Q) (durs : list Q) : list (Q * Q) :=
  match durs with
  | [] => []
  | d :: ds => let d' := clamp d in (total, d') :: recip_starts (total + d')%Q ds
  end.

(** [analyzeMeter] (humdrumfilestructure.py:300-325): the forward loop gives
    [durationFromBarline], the backward loop [durationToBarline].  The list of
    barlines is not modelled. *)
Fixpoint from_barline (sum : Q) (l : list (bool * Q)) : list Q :=
  match l with
  | [] => []
  | (bar, d) :: l' => sum :: from_barline (if bar then 0%Q else (sum + d)%Q) l'
  end.
Fixpoint to_barline (l : list (bool * Q)) : list Q * Q :=
  match l with
  | [] => ([], 0%Q)
  | (bar, d) :: l' =>
      let (r, sum) := to_barline l' in
      let sum' := (sum + d)%Q in
      (sum' :: r, if bar then 0%Q else sum')
  end.
Definition analyzeMeter (l : list (bool * Q)) : list Q * list Q := (from_barline 0 l, fst (to_barline l)).

(** [Convert.getLcm] (convert.py:643-651). *)
Definition getLcm (nums : list Z) : Z :=
  match nums with
  | [] => 1%Z
  | n :: ns => fold_left (fun out k => (out * k / Z.gcd out k)%Z) ns n
  end.

(** [tpq] (humdrumfilestructure.py:156-177), on its first call.  The set of
    durations is a list here: its order and repetitions are arbitrary in Python. *)
Definition tpq (durs : list Q) : Z :=
  let denoms := filter (fun d => 1 <? d)%Z (map (fun q => Zpos (qden q)) (filter (Qlt_bool 0) durs)) in
  match denoms with [] => 1%Z | _ => getLcm denoms end.

(** ** The view of a text file *)

(** [Convert.mensToDuration] (convert.py:225-269). *)
Fixpoint mens_scan (text : str) (perfect : bool) : Q * bool :=
  match text with
  | [] => (0%Q, perfect)
  | ch :: rest =>
      let perfect := if Ascii.eqb ch "p" then true else if Ascii.eqb ch "i" then false else perfect in
      if Ascii.eqb ch "X" then (8%Q, perfect)
      else if Ascii.eqb ch "L" then (4%Q, perfect)
      else if Ascii.eqb ch "S" then (2%Q, perfect)
      else if Ascii.eqb ch "s" then (1%Q, perfect)
      else if Ascii.eqb ch "M" then ((1 # 2)%Q, perfect)
      else if Ascii.eqb ch "m" then ((1 # 4)%Q, perfect)
      else if Ascii.eqb ch "U" then ((1 # 8)%Q, perfect)
      else if Ascii.eqb ch "u" then ((1 # 16)%Q, perfect)
      else if Ascii.eqb ch " " then (0%Q, perfect)
      else mens_scan rest perfect
  end.
Definition mensToDuration (text : str) : Q :=
  let (q, perfect) := mens_scan text false in
  ((if perfect then q * 3 / 2 else q) * 4)%Q.

Definition isDataToken (t : str) : bool :=
  negb (starts_with (S_ "*") t || starts_with (S_ "!") t || starts_with (S_ "=") t).
Definition isNullToken (t : str) : bool :=
  str_eqb t (S_ ".") || str_eqb t (S_ "*") || str_eqb t (S_ "!").

(** [HumdrumToken.analyzeDuration] (humdrumtoken.py:727-763); [dtype] is the
    exclusive interpretation of the token's track.  [recipToDuration] is the
    cache-free evaluation at the default scale (see C02).  [None]: raises. *)
Definition rhythmic (dtype : str) : bool :=
  str_eqb dtype (S_ "**kern") || str_eqb dtype (S_ "**recip") || str_eqb dtype (S_ "**mens").
Definition analyzeDuration (dtype t : str) : option Q :=
  if negb (isDataToken t) || isNullToken t || negb (rhythmic dtype) then Some (-1)%Q
  else if str_eqb dtype (S_ "**mens") then Some (mensToDuration t)
  else match recip_eval t 4 with
       | NoRhythm => Some 0%Q
       | Rhythm q => Some q
       | RhythmError => None
       end.

Definition token_text (lines : list str) (t : tokref) : str :=
  nth (snd t) (tokens (nth (fst t) lines [])) [].

(** The labels of line [i]: [infos] has one entry per spined line, none for the
    lines before the exclusive interpretation. *)
Fixpoint labels_of (lines : list str) (infos : list (list str)) (i : nat) : list str :=
  match lines, i with
  | [], _ => []
  | l :: _, O => if isGlobalLine l then [] else hd [] infos
  | l :: ls, S i' => labels_of ls (if isGlobalLine l then infos else tl infos) i'
  end.

(** [HumdrumToken.dataType] (humdrumtoken.py:430, humaddress.py): the start of
    the token's track; no text when there is none. *)
Definition data_type (lines : list str) (infos : list (list str)) (tr : tracks) (t : tokref) : str :=
  let track := N.to_nat (label_track (nth (snd t) (labels_of lines infos (fst t)) [])) in
  if track =? 0 then []
  else match nth track (trackStarts tr) None with
       | Some s => token_text lines s
       | None => []
       end.

Definition line_view (lines : list str) (dt : tokref -> str) (i : nat) (text : str) : rline :=
  mkLine (hasSpines text)
    (starts_with (S_ "=") text)
    (match text with [] => false | _ => isDataToken text end)
    (hasSpines text &&
     forallb (fun j => let t := (i, j) in negb (rhythmic (dt t)) || isNullToken (token_text lines t))
             (seq 0 (length (tokens text)))).

(** The duration of a token that raises is irrelevant to the theorems: the
    analysis of the file raises with it ([rhythm_ok]). *)
Definition rhythm_view (lines : list str) (infos : list (list str)) (fin : sstate) (g : graph) : rfile :=
  let dt := data_type lines infos (s_tracks fin) in
  mkFile
    (map (fun k => line_view lines dt k (nth k lines [])) (seq 0 (length lines)))
    (nextTokens g)
    (fun t => match analyzeDuration (dt t) (token_text lines t) with Some q => q | None => (-1)%Q end)
    (fun t => str_eqb (token_text lines t) (S_ "*-"))
    (fun t => rhythmic (dt t))
    (trackStarts (s_tracks fin)).

(** [analyzeTokenDurations] (humdrumfilestructure.py:331-338) gets to the end. *)
Definition durations_fine (lines : list str) (dt : tokref -> str) : bool :=
  forallb (fun i => forallb (fun j =>
      match analyzeDuration (dt (i, j)) (token_text lines (i, j)) with Some _ => true | None => false end)
    (seq 0 (length (tokens (nth i lines []))))) (seq 0 (length lines)).

(** Reading a text and analysing its rhythm; [None]: rejected before that. *)
Definition read_rhythm (lines : list str) : option rhythm_result :=
  match analyzeSpines lines, analyzeLinks lines with
  | Some (infos, fin), Fine g =>
      if durations_fine lines (data_type lines infos (s_tracks fin))
      then Some (analyzeRhythm (rhythm_view lines infos fin g)) else None
  | _, _ => None
  end.
