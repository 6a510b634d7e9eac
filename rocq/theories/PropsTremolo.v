(** Properties of tremolo expansion. *)
From Coq Require Import Lia.
From Verif Require Import PyStr PyStrProofs RecipModel TremoloModel TremoloProofs.
From Coq Require Import QArith Lqa.
Local Close Scope Q_scope.

(** Something sounds in line [c] from time [ts] on. *)
Definition sounds_at (ts : Q) (c : cell) : Prop := c_data c = true /\ ~ (c_dur c == 0)%Q /\ (c_time c == ts)%Q.
(** The time at which note [k] of a tremolo of 1/[v] notes starts. *)
Definition note_start (start : Q) (v : N) (k : nat) : Q := (start + (4 / inject_Z (Z.of_N v)) * inject_Z (Z.of_nat k))%Q.
(** The two lines say the same, but one has the other text. *)
Definition reworded (c c' : cell) : Prop := c_data c' = c_data c /\ c_time c' = c_time c /\ c_dur c' = c_dur c.

(** ** C47 *)

(** The claim without restriction: wherever the count of notes is an integer, nothing
    that starts at or after the end of the note is changed.  It fails for a tremolo
    whose value is that of the note itself: the loop writes a second note, over the
    next token of the spine. *)
Definition c47_column : list cell :=
  [mkCell true 0 (1 # 2) (S_ "8c@8@"); mkCell true (1 # 2) (1 # 2) (S_ "8d"); mkCell false 1 0 (S_ "*-")].
Theorem C47_refuted : exists l out, processFile 0 l = Some out
  /\ chain 0 l 1 /\ (exists d, recip_eval (S_ "8c@8@") 4 = Rhythm d /\ (d == 1 # 2)%Q)
  /\ nth_error l 0 = Some (mkCell true 0 (1 # 2) (S_ "8c@8@"))
  /\ nth_error l 1 = Some (mkCell true (1 # 2) (1 # 2) (S_ "8d"))
  /\ nth_error out 1 = Some (mkCell true (1 # 2) (1 # 2) (S_ "8c")).
Proof.
  exists c47_column. eexists. split; [vm_compute; reflexivity|]. split.
  - cbn. repeat split; try discriminate; reflexivity.
  - split; [eexists; split; [vm_compute; reflexivity|reflexivity]|]. repeat split.
Qed.
Print Assumptions C47_refuted.

(** A spine whose lines from time [t] to time [e] follow each other without gap holds a
    note or chord with a tremolo mark of value [v] of at least 8.  Its length [d] is [n]
    times 4/[v] with [n] at least 2, and the spine lasts at least until its end.  Then the
    spine is first given null tokens where lines are missing, after which at each of the
    [n] starting times exactly one token sounds; these get texts of duration 4/[v] each,
    [d] together, that keep the letters of the marked note (all but those of rhythms, marks,
    beams, ties and slur beginnings), and no other token is changed. *)
Theorem C47_partial t e pre tok post a r b1 v b2 rest d n :
  chain t (pre ++ tok :: post) e -> sounding tok ->
  c_text tok = a ++ r ++ b1 ++ S_ "@" ++ show_N v ++ S_ "@" ++ b2 ++ rest ->
  neutral_str a -> is_rhythm r -> neutral_str b1 -> neutral_str b2 -> other_notes rest ->
  recip_eval r 4 = Rhythm d ->
  (8 <= v)%N -> (d * inject_Z (Z.of_N v) == 4 * inject_Z (Z.of_nat n))%Q -> 2 <= n -> (c_time tok + d <= e)%Q ->
  exists room out, processFile (length pre) (pre ++ tok :: post) = Some out
    /\ with_nulls (pre ++ tok :: post) room
    /\ Forall2 (fun c c' => c' = c
         \/ reworded c c' /\ exists k q, k < n /\ sounds_at (note_start (c_time tok) v k) c
                                         /\ recip_eval (c_text c') 4 = Rhythm q /\ (q == 4 / inject_Z (Z.of_N v))%Q
                                         /\ keeps (c_text c') = keeps (c_text tok)) room out
    /\ (forall k, k < n -> exists i c q, nth_error out i = Some c /\ sounds_at (note_start (c_time tok) v k) c
          /\ recip_eval (c_text c) 4 = Rhythm q /\ (q == 4 / inject_Z (Z.of_N v))%Q
          /\ keeps (c_text c) = keeps (c_text tok)
          /\ forall j c', nth_error out j = Some c' -> sounds_at (note_start (c_time tok) v k) c' -> j = i)
    /\ (inject_Z (Z.of_nat n) * (4 / inject_Z (Z.of_N v)) == d)%Q.
Proof.
  intros CH ST TX NA R N1 N2 OR RD V8 CNT LN END.
  assert (DU : duration_of r = Some d) by (unfold duration_of; rewrite RD; reflexivity).
  assert (TX' : c_text tok = marked_note a r b1 v b2 rest).
  { rewrite TX. unfold marked_note, markup. rewrite <- !app_assoc. reflexivity. }
  destruct (process_spec t e pre tok post a r b1 v b2 rest d n CH ST TX' NA R N1 N2 OR V8 DU CNT LN END)
    as (room & out & PF & WN & CR & PL & F).
  assert (V0 : (0 < v)%N) by lia. pose proof (increment_pos v V0) as IP.
  assert (RE : forall s q, duration_of s = Some q -> (q == increment v)%Q -> recip_eval s 4 = Rhythm q).
  { intros s q D Q. unfold duration_of in D. destruct (recip_eval s 4) as [|x|]; try discriminate D; injection D as E; subst q; try reflexivity; exfalso; lra. }
  exists room, out. split; [exact PF|]. split; [exact WN|]. split.
  { clear - F RE. induction F as [|c c' l o W F IH]; constructor; [|exact IH].
    destruct W as [(k & q & K & PX & EQ & D & Q & KE)|(_ & ->)]; [right|left; reflexivity]. split.
    - unfold reworded. rewrite EQ. repeat split.
    - exists k, q. split; [exact K|]. split; [|split; [apply RE; assumption|split; [exact Q|exact KE]]]. destruct PX as ((A & B) & C). split; [exact A|]. split; [exact B|exact C]. }
  assert (UNI : forall i j x y ts, nth_error out i = Some x -> nth_error out j = Some y -> sounds_at ts x -> sounds_at ts y -> i = j).
  { intros i j x y ts EI EJ SX SY. destruct (forall2_nth' _ _ _ F i x EI) as (x0 & EX & WX). destruct (forall2_nth' _ _ _ F j y EJ) as (y0 & EY & WY).
    assert (G : forall c c' ts, ((exists k q, k < n /\ place_of (c_time tok) (increment v) k c /\ c' = set_text (c_text c') c
                      /\ duration_of (c_text c') = Some q /\ (q == increment v)%Q /\ keeps (c_text c') = keeps (c_text tok))
         \/ (forall k, k < n -> ~ place_of (c_time tok) (increment v) k c) /\ c' = c) -> sounds_at ts c' -> sounding c /\ (c_time c == ts)%Q).
    { intros c c' ts0 [(k & q & _ & _ & EQ & _)|(_ & ->)] (A & B & C).
      - rewrite EQ in A, B, C. split; [split; assumption|exact C].
      - split; [split; assumption|exact C]. }
    destruct (G _ _ _ WX SX) as (S1 & T1). destruct (G _ _ _ WY SY) as (S2 & T2).
    apply (chain_apart room t e CR i j x0 y0 EX EY S1 S2). lra. }
  split.
  - intros k K. destruct (PL k K) as (c & I & PX). apply In_nth_error in I. destruct I as (i & EI).
    destruct (forall2_nth _ _ _ F i c EI) as (c' & EI' & W). destruct W as [(k2 & q & K2 & PX2 & EQ & D & Q & KE)|(N & _)]; [|destruct (N k K PX)].
    assert (SA : sounds_at (note_start (c_time tok) v k) c').
    { rewrite EQ. destruct PX as ((A & B) & C). split; [exact A|]. split; [exact B|exact C]. }
    exists i, c', q. split; [exact EI'|]. split; [exact SA|]. split; [apply RE; assumption|]. split; [exact Q|]. split; [exact KE|].
    intros j y EJ SY. exact (UNI j i y c' _ EJ EI' SY SA).
  - pose proof (increment_total d v n V0 CNT) as X. unfold increment in X. rewrite Qmult_comm. exact X.
Qed.
Print Assumptions C47_partial.

(** A dotted quarter-note chord with a sixteenth-note tremolo, beside a spine that moves
    in eighth notes (so a null token already stands inside the span), followed by a note. *)
Definition c47_example : list cell :=
  [mkCell false 0 0 (S_ "**kern"); mkCell true 0 (1 # 2) (S_ "4.c@16@ 4.e"); mkCell true (1 # 2) 1 (S_ ".");
   mkCell true (3 # 2) (1 # 2) (S_ "8d"); mkCell false 2 0 (S_ "*-")].
Definition c47_texts : list str :=
  [S_ "**kern"; S_ "16c 16eLL"; S_ "16c 16e"; S_ "16c 16e"; S_ "16c 16e"; S_ "16c 16e"; S_ "16c 16eJJ"; S_ "8d"; S_ "*-"].
Example C47_nonvacuous :
  chain 0 c47_example 2 /\ sounding (mkCell true 0 (1 # 2) (S_ "4.c@16@ 4.e"))
  /\ S_ "4.c@16@ 4.e" = [] ++ S_ "4." ++ S_ "c" ++ S_ "@" ++ show_N 16 ++ S_ "@" ++ [] ++ S_ " 4.e"
  /\ neutral_str (S_ "c") /\ is_rhythm (S_ "4.") /\ other_notes (S_ " 4.e")
  /\ (exists d, recip_eval (S_ "4.") 4 = Rhythm d /\ (d * inject_Z 16 == 4 * inject_Z 6)%Q /\ (0 + d <= 2)%Q)
  /\ option_map (map c_text) (processFile 1 c47_example) = Some c47_texts
  /\ option_map (map (fun c => Qred (c_time c))) (processFile 1 c47_example)
     = Some [0; 0; 1 # 4; 1 # 2; 3 # 4; 1; 5 # 4; 3 # 2; 2]%Q.
Proof.
  split; [cbn; repeat split; try discriminate; reflexivity|]. split; [split; [reflexivity|discriminate]|]. split; [reflexivity|].
  split; [reflexivity|]. split.
  { exists (S_ "4"), [], (S_ "."). repeat split; try discriminate. left. reflexivity. }
  split; [split; [right; eexists; reflexivity|reflexivity]|]. split.
  { eexists. split; [vm_compute; reflexivity|]. split; [reflexivity|discriminate]. }
  split; vm_compute; reflexivity.
Qed.
