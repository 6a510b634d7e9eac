(** Ornaments and fermatas written to Humdrum are read as they were meant:
    C120 (ornaments), C121 (fermatas), C122 (wavy lines of trills). *)
From Coq Require Import List ZArith Ascii String Bool Lia.
From Verif Require Import PyStr PyStrProofs PitchModel PitchProofs ClefModel BarModel BarProofs SignifierProofs AccidModel AccidProofs OrnModel OrnProofs.
Import ListNotations.
Local Open Scope Z_scope.
Local Open Scope bool_scope.
Local Open Scope list_scope.

(** The semitones from the note to a neighbour. *)
Definition distance (n : knote) (p : opitch) : Z :=
  (white_key (op_pos p) + op_alter p) - (white_key (k_pos n) + k_alter n).

(** Neighbours that Humdrum can express: the next position above or below, at a
    minor or major second, or with an accidental that is shown. *)
Definition expressible (n : knote) (up : bool) (p : opitch) : Prop :=
  let k := if up then distance n p else - distance n p in
  op_pos p = (if up then k_pos n + 1 else k_pos n - 1) /\ 0 <= op_pos p /\ 0 < k /\
  ((k <= 2 /\ -2 <= op_alter p <= 2) \/ (op_shown p = Some true /\ op_alter p <> 0 /\ -3 <= op_alter p <= 3)).

(** What is expected of the accidental read for a neighbour: its alteration,
    displayed if it was, or if another alteration is in force at its position. *)
Definition meant (dst : Z -> Z) (p : opitch) : accidental :=
  Some (op_alter p,
        (match op_shown p with Some true => negb (op_alter p =? 0) | _ => false end)
        || negb (dst (op_pos p) =? op_alter p)).

Definition is_ornament (r : rexpr) : bool := match r with RFermata _ _ => false | _ => true end.
Definition k_main (n : knote) : Z * Z := (k_pos n, k_alter n).

(** Reading what was written for the notes [n :: ns] (a chord if there are
    several) with the expressions [es], in a file whose signs for above and
    below are those the writer declares. *)
Definition reread (subtrack : nat) (dst : nat -> Z -> Z) (n : knote) (ns : list knote) (es : list expr) : list rexpr :=
  let e := write_exprs (Some (k_main n)) es in
  read_ornaments (Some ">"%char) (Some "<"%char) subtrack dst (snd e) (map (knote_text (fst e)) (n :: ns)).

Lemma distance_written n p : semitones_to (Some (k_main n)) p = distance n p.
Proof. unfold semitones_to, k_main, distance. rewrite !pos_semitones_white. reflexivity. Qed.

Lemma frames_of e1 w e2 l : map (knote_text (e1 ++ w ++ e2)) l = frames w (map (fun n => (lead e1 n, trail e2 n)) l).
Proof. unfold frames. rewrite map_map. apply map_ext. intros n. apply knote_frame. Qed.
Lemma frames_calm e1 e2 l : Forall knote_ok l -> forallb plain_char e1 = true -> forallb plain_char e2 = true -> unsigned e2 ->
  Forall calm_pair (map (fun n => (lead e1 n, trail e2 n)) l).
Proof.
  intros H H1 H2 U. apply Forall_map. apply (Forall_impl _ (P := knote_ok)); [|exact H]. intros n Ok.
  split; [apply calm_lead; assumption|]. split; [apply calm_trail; assumption|apply unsigned_trail; assumption].
Qed.

Lemma filter_fermata ab be t : filter is_ornament (read_fermata ab be t) = [].
Proof.
  unfold read_fermata. destruct (negb (char_in ";" t)); [reflexivity|]. destruct (contains (S_ "yy") t); [reflexivity|].
  destruct (contains (S_ ";;") t); [reflexivity|]. destruct (direction ab be ";" t) as [[|]|]; reflexivity.
Qed.

(** The common part: only the reader of the ornament's kind has anything to do. *)
Lemma reread_frames subtrack dst n ns es1 o es2 w : knote_ok n -> Forall knote_ok ns -> Forall plain es1 -> Forall plain es2 ->
  fst (write_orn (Some (k_main n)) o) = w -> forallb orn_char w = true ->
  exists e1 e2 an LR, let ls := snd (write_orn (Some (k_main n)) o) in
  forallb plain_char e1 = true /\ forallb plain_char e2 = true /\ unsigned e2 /\
  LR = map (fun n => (lead e1 n, trail e2 n)) (n :: ns) /\ Forall calm_pair LR /\
  an 0%nat = analysed (dst 0%nat) (2 + 4 * k_pos n + white_key (k_pos n) + k_alter n) w (knote_text (e1 ++ w ++ e2) n) /\
  filter is_ornament (reread subtrack dst n ns (es1 ++ EOrn o :: es2))
  = filter is_ornament (if char_in "t" w || char_in "T" w then read_trill (Some ">"%char) (Some "<"%char) an ls (token_text (frames w LR)) else [])
    ++ filter is_ornament (if char_in "w" w || char_in "W" w || (char_in "m" w || char_in "M" w) then read_mordents (Some ">"%char) (Some "<"%char) subtrack an ls (frames w LR) else [])
    ++ filter is_ornament (if char_in "s" w || char_in "S" w || char_in "$" w then read_turn (Some ">"%char) (Some "<"%char) an ls (token_text (frames w LR)) else []).
Proof.
  intros Hn Hns H1 H2 E Hw. destruct (plain_texts (Some (k_main n)) es1 H1) as (P1 & _ & _).
  destruct (plain_texts (Some (k_main n)) es2 H2) as (P2 & _ & U2).
  set (e1 := fst (write_exprs (Some (k_main n)) es1)) in *. set (e2 := fst (write_exprs (Some (k_main n)) es2)) in *.
  set (LR := map (fun n => (lead e1 n, trail e2 n)) (n :: ns)).
  set (an := fun k => match nth_error (frames w LR) k with
              | Some s => analyse (dst k) (Nat.ltb 1 (length (frames w LR))) s | None => no_autos end).
  exists e1, e2, an, LR.
  assert (C : Forall calm_pair LR) by (apply frames_calm; [constructor; assumption|assumption..]).
  assert (Ne : LR <> []) by discriminate.
  split; [exact P1|]. split; [exact P2|]. split; [exact U2|]. split; [reflexivity|]. split; [exact C|]. split.
  - unfold an, LR. cbn [map frames nth_error]. rewrite <- knote_frame. apply analyse_note; assumption.
  - unfold reread. rewrite write_exprs_one by assumption. cbn [fst snd]. fold e1 e2. rewrite E, frames_of. fold LR.
    unfold read_ornaments. rewrite lower_t, lower_w, lower_m, lower_s, lower_d, orb_diag.
    rewrite !(char_in_frames _ w LR) by (try reflexivity; assumption). rewrite !filter_app. fold an. f_equal.
    replace (filter is_ornament (if char_in ";" (map to_lower (token_text (frames w LR))) then read_fermata (Some ">"%char) (Some "<"%char) (token_text (frames w LR)) else [])) with (@nil rexpr); [reflexivity|].
    destruct (char_in ";" _); [rewrite filter_fermata; reflexivity|reflexivity].
Qed.

(** The accidental of a neighbour, from the analysis and the layout parameter. *)
Lemma neighbour_read kt dst n up p a : knote_ok n -> expressible n up p ->
  (let k := if up then distance n p else - distance n p in k <= 2 -> -2 <= op_alter p <= 2 ->
   a = Some (op_alter p, negb (dst (op_pos p) =? op_alter p))) ->
  layout_accid kt a (match op_shown p with Some true => accid_modifier (op_alter p) | _ => [] end) = meant dst p.
Proof.
  intros Ok (E & P0 & K & H) A. unfold meant.
  destruct (op_shown p) as [[|]|] eqn:S.
  - destruct (Z.eq_dec (op_alter p) 0) as [Z0|NZ].
    + rewrite Z0, modifier_zero. rewrite Z0 in *. destruct H as [[H1 H2]|[_ [H _]]]; [|congruence]. exact (A H1 H2).
    + rewrite modifier_read; [|destruct H as [[_ H]|[_ [_ H]]]; lia|exact NZ].
      apply Z.eqb_neq in NZ. rewrite NZ. reflexivity.
  - rewrite no_layout. destruct H as [[H1 H2]|[H _]]; [exact (A H1 H2)|discriminate].
  - rewrite no_layout. destruct H as [[H1 H2]|[H _]]; [exact (A H1 H2)|discriminate].
Qed.

(** C120.  A trill is read as one trill to the same neighbour note, whatever
    other expressions the note has, and on chords too.  Missing from the full
    claim (every ornament comes back as it was): see the counterexamples. *)
Theorem C120_trill_partial : forall subtrack dst n ns es1 es2 p,
  knote_ok n -> Forall knote_ok ns -> Forall plain es1 -> Forall plain es2 -> expressible n true p ->
  filter is_ornament (reread subtrack dst n ns (es1 ++ EOrn (Trill p) :: es2))
  = [RTrill (meant (dst 0%nat) p) None false].
Proof.
  intros subtrack dst n ns es1 es2 p Hn Hns H1 H2 Ex. pose proof Ex as (E & P0 & K & H).
  set (d := if distance n p <=? 1 then "t"%char else "T"%char).
  assert (W : fst (write_orn (Some (k_main n)) (Trill p)) = [d]).
  { cbn [write_orn fst]. rewrite distance_written. destruct (distance n p =? 0) eqn:E0; [apply Z.eqb_eq in E0; lia|].
    rewrite Z.abs_eq by lia. subst d. assert (G : distance n p >? 0 = true) by lia. rewrite G. destruct (distance n p <=? 1); reflexivity. }
  destruct (reread_frames subtrack dst n ns es1 (Trill p) es2 [d] Hn Hns H1 H2 W) as (e1 & e2 & an & LR & P1 & P2 & U2 & EL & C & A & R).
  { subst d. destruct (distance n p <=? 1); reflexivity. }
  cbv zeta in R. rewrite R. clear R.
  replace (char_in "t" [d] || char_in "T" [d]) with true by (subst d; destruct (distance n p <=? 1); reflexivity).
  replace (char_in "w" [d] || char_in "W" [d] || (char_in "m" [d] || char_in "M" [d])) with false by (subst d; destruct (distance n p <=? 1); reflexivity).
  replace (char_in "s" [d] || char_in "S" [d] || char_in "$" [d]) with false by (subst d; destruct (distance n p <=? 1); reflexivity).
  rewrite read_trill_frames; [|subst d; destruct (distance n p <=? 1); reflexivity|subst LR; discriminate|exact C].
  cbn [filter is_ornament app]. f_equal. f_equal. cbn [write_orn snd]. rewrite acc_layout_value.
  apply (neighbour_read _ (dst 0%nat) n true p); [exact Hn|exact Ex|]. cbv zeta. intros K2 Al. rewrite A.
  destruct Hn as (_ & _ & _ & _ & O & AL). unfold distance in *. rewrite E in *.
  assert (Pos : 0 <= k_pos n) by (unfold k_pos; pose proof (step_index_range (k_step n)); lia).
  assert (DD : distance n p = 1 \/ distance n p = 2) by (unfold distance; rewrite E; lia). unfold distance in DD. rewrite E in DD.
  unfold analysed. subst d. unfold distance. rewrite E. destruct DD as [D|D]; rewrite D; cbn [Z.leb Z.compare Pos.compare Pos.compare_cont char_in existsb Ascii.eqb orb a_trill].
  - exact (auto_above (dst 0%nat) (k_pos n) (k_alter n) (op_alter p) 1 Pos Al D).
  - exact (auto_above (dst 0%nat) (k_pos n) (k_alter n) (op_alter p) 2 Pos Al D).
Qed.
Print Assumptions C120_trill_partial.

Ltac concrete := vm_compute; repeat match goal with |- _ /\ _ => split end; repeat constructor; intuition discriminate.

(** A concrete note: quarter d#5 with fermata, to be trilled with e5. *)
Definition nb_dis := KNote (S_ "(4") StD 5 1 (S_ "") (S_ "'L").
Definition nb_e := OP 37 0 None.
Example C120_trill_nonvacuous :
  knote_ok nb_dis /\ Forall plain [ETremolo (S_ "@32@")] /\ Forall plain [EFermata true; EArpeggio]
  /\ expressible nb_dis true nb_e
  /\ knote_text (fst (write_exprs (Some (k_main nb_dis)) [ETremolo (S_ "@32@"); EOrn (Trill nb_e); EFermata true])) nb_dis
     = S_ "(4dd#@32@t;<'L"
  /\ filter is_ornament (reread 0 (fun _ d => if d =? 37 then -1 else 0) nb_dis [] [ETremolo (S_ "@32@"); EOrn (Trill nb_e); EFermata true])
     = [RTrill (Some (0, true)) None false].
Proof.
  repeat match goal with |- _ /\ _ => split end; try (vm_compute; reflexivity); concrete.
Qed.

(** C120.  A mordent of a single note is read as one mordent on the same side, to the same neighbour. *)
Theorem C120_mordent_partial : forall subtrack dst n es1 es2 up p,
  knote_ok n -> Forall plain es1 -> Forall plain es2 -> expressible n up p ->
  filter is_ornament (reread subtrack dst n [] (es1 ++ EOrn (Mordent p) :: es2))
  = [RMordent up (meant (dst 0%nat) p) (Some (Nat.eqb subtrack 0 || Nat.odd subtrack))].
Proof.
  intros subtrack dst n es1 es2 up p Hn H1 H2 Ex. pose proof Ex as (E & P0 & K & H).
  set (small := Z.abs (distance n p) <=? 1).
  set (d := if up then (if small then "m" else "M")%char else (if small then "w" else "W")%char).
  assert (W : fst (write_orn (Some (k_main n)) (Mordent p)) = [d]).
  { cbn [write_orn fst]. rewrite distance_written. destruct (distance n p =? 0) eqn:E0; [apply Z.eqb_eq in E0; destruct up; lia|].
    fold small. subst d. destruct up.
    - assert (G : distance n p >? 0 = true) by lia. rewrite G. destruct small; reflexivity.
    - assert (G : distance n p >? 0 = false) by lia. rewrite G. destruct small; reflexivity. }
  destruct (reread_frames subtrack dst n [] es1 (Mordent p) es2 [d] Hn (Forall_nil _) H1 H2 W) as (e1 & e2 & an & LR & P1 & P2 & U2 & EL & C & A & R).
  { subst d. destruct up, small; reflexivity. }
  cbv zeta in R. rewrite R. clear R.
  replace (char_in "t" [d] || char_in "T" [d]) with false by (subst d; destruct up, small; reflexivity).
  replace (char_in "w" [d] || char_in "W" [d] || (char_in "m" [d] || char_in "M" [d])) with true by (subst d; destruct up, small; reflexivity).
  replace (char_in "s" [d] || char_in "S" [d] || char_in "$" [d]) with false by (subst d; destruct up, small; reflexivity).
  cbn [map] in EL. rewrite EL in *. cbn [frames map].
  rewrite read_mordent_single; [|subst d; destruct up, small; reflexivity|exact (Forall_inv C)].
  cbn [filter is_ornament app]. f_equal.
  replace (negb (char_in d (S_ "wW"))) with up by (subst d; destruct up, small; reflexivity).
  f_equal. cbn [write_orn snd]. rewrite acc_layout_value.
  apply (neighbour_read _ (dst 0%nat) n up p); [exact Hn|exact Ex|]. cbv zeta. intros K2 Al. rewrite A.
  destruct Hn as (_ & _ & _ & _ & O & AL).
  assert (Pos : 0 <= k_pos n) by (unfold k_pos; pose proof (step_index_range (k_step n)); lia).
  unfold analysed. destruct up.
  - assert (DD : distance n p = 1 \/ distance n p = 2) by lia.
    assert (SM : small = (distance n p <=? 1)) by (subst small; rewrite Z.abs_eq by lia; reflexivity).
    subst d. rewrite SM. destruct DD as [D|D]; rewrite D; cbn [Z.leb Z.compare Pos.compare Pos.compare_cont char_in existsb Ascii.eqb orb a_mordent];
    unfold distance in D; rewrite E in *.
    + exact (auto_above (dst 0%nat) (k_pos n) (k_alter n) (op_alter p) 1 Pos Al D).
    + exact (auto_above (dst 0%nat) (k_pos n) (k_alter n) (op_alter p) 2 Pos Al D).
  - assert (DD : distance n p = -1 \/ distance n p = -2) by lia.
    subst d small. destruct DD as [D|D]; rewrite D; cbn [Z.abs Z.leb Z.compare Pos.compare Pos.compare_cont char_in existsb Ascii.eqb orb a_mordent];
    unfold distance in D; rewrite E in *.
    + apply (auto_below (dst 0%nat) (k_pos n) (k_alter n) (op_alter p) 1); [lia|exact Al|lia].
    + apply (auto_below (dst 0%nat) (k_pos n) (k_alter n) (op_alter p) 2); [lia|exact Al|lia].
Qed.
Print Assumptions C120_mordent_partial.

(** g4 with a lower mordent to a shown f#4; and with an augmented second to a#4. *)
Definition nb_g := KNote (S_ "8") StG 4 0 (S_ "") (S_ "J").
Definition nb_fis := OP 31 1 (Some true).
Definition nb_aisis := OP 33 1 (Some true).
Example C120_mordent_nonvacuous :
  knote_ok nb_g /\ expressible nb_g false nb_fis /\ expressible nb_g true nb_aisis
  /\ reread 2 (fun _ _ => 0) nb_g [] [EOrn (Mordent nb_fis)] = [RMordent false (Some (1, true)) (Some false)]
  /\ reread 0 (fun _ _ => 0) nb_g [] [EOrn (Mordent nb_aisis)] = [RMordent true (Some (1, true)) (Some true)].
Proof.
  repeat match goal with |- _ /\ _ => split end; try (vm_compute; reflexivity); concrete.
Qed.

(** C120.  A turn is read as one turn with the same delay and the same two neighbours; an inverted one
    only if the two steps have the same size. *)
Theorem C120_turn_partial : forall subtrack dst n ns es1 es2 inverted delayed u l,
  knote_ok n -> Forall knote_ok ns -> Forall plain es1 -> Forall plain es2 ->
  expressible n true u -> expressible n false l ->
  (inverted = true -> distance n u = - distance n l) ->
  filter is_ornament (reread subtrack dst n ns (es1 ++ EOrn (Turn inverted delayed u l) :: es2))
  = [RTurn inverted delayed (meant (dst 0%nat) u) (meant (dst 0%nat) l) None].
Proof.
  intros subtrack dst n ns es1 es2 inverted delayed u l Hn Hns H1 H2 Eu El Inv.
  pose proof Eu as (EU & U0 & KU & HU). pose proof El as (ELo & L0 & KL & HL).
  set (bu := negb (Z.abs (distance n u) <=? 1)). set (bl := negb (Z.abs (distance n l) <=? 1)).
  assert (W : fst (write_orn (Some (k_main n)) (Turn inverted delayed u l)) = turn_text inverted delayed bu bl).
  { cbn [write_orn fst]. rewrite !distance_written. subst bu bl.
    destruct (Z.abs (distance n u) <=? 1), (Z.abs (distance n l) <=? 1), inverted, delayed; reflexivity. }
  destruct (reread_frames subtrack dst n ns es1 _ es2 _ Hn Hns H1 H2 W) as (e1 & e2 & an & LR & P1 & P2 & U2 & EL & C & A & R).
  { destruct inverted, delayed, bu, bl; reflexivity. }
  cbv zeta in R. rewrite R. clear R.
  replace (char_in "t" (turn_text inverted delayed bu bl) || char_in "T" (turn_text inverted delayed bu bl)) with false by (destruct inverted, delayed, bu, bl; reflexivity).
  replace (char_in "w" (turn_text inverted delayed bu bl) || char_in "W" (turn_text inverted delayed bu bl) || (char_in "m" (turn_text inverted delayed bu bl) || char_in "M" (turn_text inverted delayed bu bl))) with false by (destruct inverted, delayed, bu, bl; reflexivity).
  replace (char_in "s" (turn_text inverted delayed bu bl) || char_in "S" (turn_text inverted delayed bu bl) || char_in "$" (turn_text inverted delayed bu bl)) with true by (destruct inverted, delayed, bu, bl; reflexivity).
  cbn [write_orn snd].
  rewrite (read_turn_frames an _ _ delayed inverted LR); [| |subst LR; discriminate|exact C|apply turn_layout_flip].
  2:{ destruct inverted, delayed, bu, bl; repeat split; try reflexivity; cbn; lia. }
  cbn [filter is_ornament app]. f_equal. rewrite turn_layout_upper, turn_layout_lower.
  pose proof Hn as (_ & _ & _ & _ & O & AL).
  assert (Pos : 0 <= k_pos n) by (unfold k_pos; pose proof (step_index_range (k_step n)); lia).
  destruct (base40_read (k_pos n) (k_alter n) Pos AL) as [_ BD].
  assert (AN : an 0%nat = turn_autos (dst 0%nat) (2 + 4 * k_pos n + white_key (k_pos n) + k_alter n) (lead e1 n ++ turn_text inverted delayed bu bl ++ trail e2 n) inverted).
  { rewrite A, <- knote_frame. unfold analysed. destruct inverted, delayed, bu, bl; reflexivity. }
  rewrite turn_autos_text in AN by (apply calm_lead; assumption). cbv zeta in AN. rewrite BD in AN.
  assert (SU : bu = negb (distance n u <=? 1)) by (subst bu; rewrite Z.abs_eq by lia; reflexivity).
  assert (SL : bl = negb (- distance n l <=? 1)) by (subst bl; rewrite Z.abs_neq by lia; reflexivity).
  assert (Sizes : size_of (if inverted then bl else bu) = size_of bu /\ size_of (if inverted then bu else bl) = size_of bl).
  { destruct inverted; [|split; reflexivity]. rewrite SU, SL, (Inv eq_refl). split; reflexivity. }
  destruct Sizes as [S1 S2]. rewrite S1, S2 in AN. rewrite AN. cbn [a_upper a_lower]. f_equal.
  - apply (neighbour_read _ (dst 0%nat) n true u); [exact Hn|exact Eu|]. cbv zeta. intros K2 Al.
    assert (SZ : size_of bu = 4 + distance n u) by (rewrite SU; assert (DD : distance n u = 1 \/ distance n u = 2) by lia; destruct DD as [-> | ->]; reflexivity).
    rewrite SZ. unfold distance. rewrite EU. destruct (base40_read (k_pos n + 1) (op_alter u) ltac:(lia) Al) as [BA _].
    replace (2 + 4 * k_pos n + white_key (k_pos n) + k_alter n + (4 + (white_key (k_pos n + 1) + op_alter u - (white_key (k_pos n) + k_alter n))))
      with (2 + 4 * (k_pos n + 1) + white_key (k_pos n + 1) + op_alter u) by lia.
    rewrite BA, Z.eqb_sym. reflexivity.
  - apply (neighbour_read _ (dst 0%nat) n false l); [exact Hn|exact El|]. cbv zeta. intros K2 Al.
    assert (SZ : size_of bl = 4 - distance n l) by (rewrite SL; assert (DD : distance n l = -1 \/ distance n l = -2) by lia; destruct DD as [-> | ->]; reflexivity).
    rewrite SZ. unfold distance. rewrite ELo. destruct (base40_read (k_pos n - 1) (op_alter l) ltac:(lia) Al) as [BA _].
    replace (2 + 4 * k_pos n + white_key (k_pos n) + k_alter n + - (4 - (white_key (k_pos n - 1) + op_alter l - (white_key (k_pos n) + k_alter n))))
      with (2 + 4 * (k_pos n - 1) + white_key (k_pos n - 1) + op_alter l) by lia.
    rewrite BA, Z.eqb_sym. reflexivity.
Qed.
Print Assumptions C120_turn_partial.

(** A turn on the chord g4 b4, between a4 and f#4 (not shown). *)
Definition nb_b := KNote (S_ "8") StB 4 0 (S_ "") (S_ "J").
Definition nb_a := OP 33 0 None.
Definition nb_fis_hidden := OP 31 1 (Some false).
Example C120_turn_nonvacuous :
  Forall knote_ok [nb_g; nb_b] /\ expressible nb_g true nb_a /\ expressible nb_g false nb_fis_hidden
  /\ token_text (map (knote_text (fst (write_exprs (Some (k_main nb_g)) [EOrn (Turn false false nb_a nb_fis_hidden)]))) [nb_g; nb_b]) = S_ "8gsSSsJ 8bsSSsJ"
  /\ reread 0 (fun _ _ => 0) nb_g [nb_b] [EOrn (Turn false false nb_a nb_fis_hidden)]
     = [RTurn false false (Some (0, false)) (Some (1, true)) None].
Proof.
  repeat match goal with |- _ /\ _ => split end; try (vm_compute; reflexivity).
  all: concrete.
Qed.

(** Counterexamples.  A trill to the note below comes back as a trill to the
    note above, placed below the note: b4 trilled with a4 gives b4 with c#5. *)
Theorem C120_inverted_trill_refuted : exists n p dst,
  knote_ok n /\ expressible n false p
  /\ reread 0 dst n [] [EOrn (Trill p)] = [RTrill (Some (1, true)) (Some false) false] /\ op_alter p = 0.
Proof.
  exists nb_b, (OP 33 0 None), (fun _ _ => 0). split; [vm_compute; intuition discriminate|].
  split; [|split; vm_compute; reflexivity].
  concrete.
Qed.
Print Assumptions C120_inverted_trill_refuted.

(** An inverted turn on g4 between f#4 and a4: the steps are exchanged (f and ab). *)
Theorem C120_inverted_turn_refuted : exists n u l dst,
  knote_ok n /\ expressible n true u /\ expressible n false l /\ op_alter u = 0 /\ op_alter l = 1
  /\ reread 0 dst n [] [EOrn (Turn true true u l)] = [RTurn true true (Some (-1, true)) (Some (0, false)) None].
Proof.
  exists nb_g, nb_a, nb_fis_hidden, (fun _ _ => 0). split; [vm_compute; intuition discriminate|].
  split; [concrete|].
  split; [concrete|].
  repeat split; vm_compute; reflexivity.
Qed.
Print Assumptions C120_inverted_turn_refuted.

(** g4 trilled with a#4, where the accidental is not shown (it is in force): read as a4 natural. *)
Theorem C120_wide_step_refuted : exists n p dst,
  knote_ok n /\ op_pos p = k_pos n + 1 /\ op_alter p = 1 /\ op_shown p = Some false /\ dst 0%nat (op_pos p) = 1
  /\ reread 0 dst n [] [EOrn (Trill p)] = [RTrill (Some (0, true)) None false].
Proof.
  exists nb_g, (OP 33 1 (Some false)), (fun _ d => if d =? 33 then 1 else 0). split; [vm_compute; intuition discriminate|].
  repeat split; vm_compute; reflexivity.
Qed.
Print Assumptions C120_wide_step_refuted.

(** One mordent on a chord of two notes comes back as two, one above and one below. *)
Theorem C120_chord_mordent_refuted : exists n n2 p dst,
  Forall knote_ok [n; n2] /\ expressible n true p
  /\ reread 0 dst n [n2] [EOrn (Mordent p)]
     = [RMordent true (Some (0, false)) (Some false); RMordent true (Some (1, true)) (Some true)].
Proof.
  exists nb_g, nb_b, nb_a, (fun _ _ => 0). split; [repeat constructor; vm_compute; intuition discriminate|].
  split; [|vm_compute; reflexivity].
  concrete.
Qed.
Print Assumptions C120_chord_mordent_refuted.

(** A mordent on an unpitched note, or to an enharmonic neighbour, is written as a trill. *)
Theorem C120_zero_mordent_refuted :
  (forall p, fst (write_orn None (Mordent p)) = S_ "t") /\
  exists n p dst, knote_ok n /\ op_pos p = k_pos n + 1 /\ op_alter p = -1
    /\ reread 0 dst n [] [EOrn (Mordent p)] = [RTrill (Some (0, false)) None false].
Proof.
  split; [reflexivity|]. exists (KNote (S_ "4") StE 4 0 [] []), (OP 31 (-1) (Some false)), (fun _ _ => 0).
  split; [vm_compute; intuition discriminate|]. repeat split; vm_compute; reflexivity.
Qed.
Print Assumptions C120_zero_mordent_refuted.

(** Of a trill and a mordent on the same note only the trill keeps its
    neighbour; and a trill on the end of a tie does not. *)
Theorem C120_two_ornaments_refuted : exists n p q dst,
  knote_ok n /\ expressible n true p /\ expressible n false q
  /\ reread 0 dst n [] [EOrn (Trill p); EOrn (Mordent q)]
     = [RTrill (Some (0, false)) None false; RMordent false None (Some true)].
Proof.
  exists nb_g, nb_a, nb_fis_hidden, (fun _ _ => 0). split; [vm_compute; intuition discriminate|].
  split; [concrete|].
  split; [concrete|].
  vm_compute; reflexivity.
Qed.
Print Assumptions C120_two_ornaments_refuted.
Theorem C120_tied_refuted : exists n p dst,
  k_tail n = S_ "]" /\ expressible n true p /\ op_alter p = -1
  /\ reread 0 dst n [] [EOrn (Trill p)] = [RTrill None None false].
Proof.
  exists (KNote (S_ "4") StG 4 0 [] (S_ "]")), (OP 33 (-1) (Some false)), (fun _ _ => 0). split; [reflexivity|].
  split; [concrete|].
  split; vm_compute; reflexivity.
Qed.
Print Assumptions C120_tied_refuted.

(** ** Fermatas *)
Definition is_fermata_expr (e : expr) : bool := match e with EFermata _ => true | _ => false end.
Definition regular (e : expr) : Prop := match e with ETremolo s => forallb is_tremolo_char s = true | _ => True end.

Definition tame_char (c : ascii) : bool := negb (char_in c (S_ "; y")).
Definition tame (s : str) : bool := forallb tame_char s.
Lemma tame_no c s : tame_char c = false -> tame s = true -> char_in c s = false.
Proof.
  intros Hc. unfold tame. induction s as [|x s IH]; [reflexivity|]. cbn [forallb]. intros H. apply andb_true_iff in H as [Hx H].
  rewrite char_in_cons, (IH H), orb_false_r. destruct (Ascii.eqb c x) eqn:E; [apply Ascii.eqb_eq in E; congruence|reflexivity].
Qed.
Lemma quiet_tame c : quiet_char c = true -> tame_char c = true.
Proof.
  intros H. assert (G : negb (quiet_char c) || tame_char c = true) by (apply (all_ascii (fun c => negb (quiet_char c) || tame_char c)); vm_compute; reflexivity).
  rewrite H in G. exact G.
Qed.
Lemma tremolo_tame c : is_tremolo_char c = true -> tame_char c = true.
Proof.
  intros H. assert (G : negb (is_tremolo_char c) || tame_char c = true) by (apply (all_ascii (fun c => negb (is_tremolo_char c) || tame_char c)); vm_compute; reflexivity).
  rewrite H in G. exact G.
Qed.
Lemma expr_tame main e : regular e -> is_fermata_expr e = false ->
  tame (fst (write_expr main e)) = true /\ unsigned (fst (write_expr main e)).
Proof.
  destruct e as [o|s|f|u| |b|]; cbn [regular is_fermata_expr]; intros H F; try discriminate.
  - destruct o as [p|p|i d u l]; cbn [write_expr write_orn fst].
    + repeat match goal with |- context [if ?c then _ else _] => destruct c end; repeat split; discriminate.
    + repeat match goal with |- context [if ?c then _ else _] => destruct c end; repeat split; discriminate.
    + destruct (Z.abs (semitones_to main u) <=? 1), (Z.abs (semitones_to main l) <=? 1), i, d; repeat split; discriminate.
  - cbn [write_expr fst]. split; [exact (forallb_weaken _ _ _ tremolo_tame H)|].
    destruct s as [|c s]; [exact I|]. cbn [forallb] in H. apply andb_true_iff in H as [H _].
    cbn [unsigned]. split; intros ->; discriminate.
  - destruct f; repeat split; discriminate.
  - repeat split; discriminate.
  - destruct b; repeat split; discriminate.
  - repeat split.
Qed.
Lemma exprs_tame main es : Forall regular es -> existsb is_fermata_expr es = false ->
  tame (fst (write_exprs main es)) = true /\ unsigned (fst (write_exprs main es)).
Proof.
  induction 1 as [|e es He Hes IH]; [repeat split|]. cbn [existsb]. intros H. apply orb_false_iff in H as [H1 H2].
  destruct (expr_tame main e He H1) as [A B]. destruct (IH H2) as [A' B']. cbn [write_exprs map concat fst] in *.
  unfold tame in *. rewrite forallb_app, A, A'. split; [reflexivity|]. apply unsigned_app; assumption.
Qed.
Lemma tame_pitch o s : tame (kernPitchFromM21OctaveAndStep o s) = true.
Proof. destruct (kernPitch_letters o s) as (low & k & E & _). rewrite E. apply forallb_rep. destruct low, s; reflexivity. Qed.
Lemma tame_accid a : tame (accid_text a) = true.
Proof.
  unfold accid_text.
  repeat match goal with |- context [if ?c then _ else _] => destruct c end; try reflexivity; apply forallb_rep; reflexivity.
Qed.
Lemma tame_lead e1 n : knote_ok n -> tame e1 = true -> tame (lead e1 n) = true.
Proof.
  intros (A & B & _) H. unfold lead, tame in *. rewrite !forallb_app, H.
  rewrite (forallb_weaken _ _ _ quiet_tame A), (forallb_weaken _ _ _ quiet_tame B).
  pose proof (tame_pitch (k_oct n) (k_step n)) as P. pose proof (tame_accid (k_alter n)) as Q. unfold tame in P, Q. rewrite P, Q. reflexivity.
Qed.
Lemma tame_trail e2 n : knote_ok n -> tame e2 = true -> tame (trail e2 n) = true.
Proof. intros (_ & _ & C & _) H. unfold trail, tame in *. rewrite forallb_app, H, (forallb_weaken _ _ _ quiet_tame C). reflexivity. Qed.

Definition tame_pair (lr : str * str) : Prop := let (L, R) := lr in tame L = true /\ tame R = true /\ unsigned R.
Lemma frames_tame e1 e2 l : Forall knote_ok l -> tame e1 = true -> tame e2 = true -> unsigned e2 ->
  Forall tame_pair (map (fun n => (lead e1 n, trail e2 n)) l).
Proof.
  intros H H1 H2 U. apply Forall_map. apply (Forall_impl _ (P := knote_ok)); [|exact H]. intros n Ok.
  split; [apply tame_lead; assumption|]. split; [apply tame_trail; assumption|apply unsigned_trail; assumption].
Qed.
Lemma char_in_tame c w LR : tame_char c = false -> Ascii.eqb c " " = false -> LR <> [] -> Forall tame_pair LR ->
  char_in c (token_text (frames w LR)) = char_in c w.
Proof.
  intros Hc Hs Hne H. induction H as [|[L R] LR (A & B & _) H IH]; [congruence|].
  unfold frames in *. cbn [map]. rewrite text_cons, !char_in_app.
  rewrite (tame_no c _ Hc A), (tame_no c _ Hc B). cbn [orb]. rewrite orb_false_r.
  destruct LR as [|lr' LR].
  - cbn [map]. rewrite orb_false_r. reflexivity.
  - specialize (IH ltac:(discriminate)). cbn [map] in *. rewrite char_in_app, IH.
    change (S_ " ") with [" "%char]. rewrite char_in_cons, Hs. cbn. destruct (char_in c w); reflexivity.
Qed.
(** What stands behind the semicolon of a fermata. *)
Lemma semicolon_next x (v : bool) LR : char_in x (S_ "<>;") = true -> LR <> [] -> Forall tame_pair LR ->
  contains [";"%char; x] (token_text (frames (S_ ";" ++ if v then S_ "<" else []) LR)) = v && Ascii.eqb x "<".
Proof.
  intros Hx Hne H. induction H as [|[L R] LR (A & B & U) H IH]; [congruence|].
  unfold frames in *. cbn [map]. rewrite text_cons, <- !app_assoc. rewrite contains_skip_list by (apply tame_no; [reflexivity|exact A]).
  change (S_ ";") with [";"%char]. cbn [app]. rewrite contains_cons.
  set (rest := match map _ LR with [] => [] | _ :: _ => _ end).
  assert (Rest : contains [";"%char; x] rest = match LR with [] => false | _ => v && Ascii.eqb x "<" end).
  { subst rest. destruct LR as [|lr' LR]; [reflexivity|]. specialize (IH ltac:(discriminate)). cbn [map] in *.
    change (S_ " ") with [" "%char]. cbn [app]. rewrite contains_skip by reflexivity. exact IH. }
  assert (HR : contains [";"%char; x] ((if v then S_ "<" else []) ++ R ++ rest) = match LR with [] => false | _ => v && Ascii.eqb x "<" end).
  { rewrite contains_skip_list by (destruct v; reflexivity). rewrite contains_skip_list by (apply tame_no; [reflexivity|exact B]). exact Rest. }
  rewrite HR. change (starts_with [";"%char; x] (";"%char :: (if v then S_ "<" else []) ++ R ++ rest)) with (starts_with [x] ((if v then S_ "<" else []) ++ R ++ rest)).
  assert (ST : starts_with [x] ((if v then S_ "<" else []) ++ R ++ rest) = v && Ascii.eqb x "<").
  { destruct v; cbn [S_ list_ascii_of_string app starts_with andb].
    - rewrite andb_true_r. reflexivity.
    - destruct R as [|c R]; cbn [app].
      + subst rest. destruct LR as [|lr' LR]; cbn [map]; [reflexivity|]. cbn. rewrite andb_true_r.
        destruct (Ascii.eqb x " ") eqn:E; [apply Ascii.eqb_eq in E; subst x; discriminate|reflexivity].
      + destruct U as [U1 U2]. unfold tame in B. cbn [forallb] in B. apply andb_true_iff in B as [Bc _]. cbn [starts_with]. rewrite andb_true_r.
        destruct (Ascii.eqb x c) eqn:E; [|reflexivity]. apply Ascii.eqb_eq in E. subst c.
        destruct (Ascii.eqb x ";") eqn:E3; [apply Ascii.eqb_eq in E3; subst x; discriminate|].
        apply Ascii.eqb_neq in U1, U2. change (Ascii.eqb x "<" || (Ascii.eqb x ">" || (Ascii.eqb x ";" || false)) = true) in Hx.
        rewrite U1, U2, E3 in Hx. discriminate. }
  rewrite ST. destruct LR; destruct (v && Ascii.eqb x "<"); reflexivity.
Qed.

Lemma not_fermata_trill ab be an ls t : filter (fun r => negb (is_ornament r)) (read_trill ab be an ls t) = [].
Proof. unfold read_trill. destruct (find_trill 0 0 t) as [[? ?]|]; [|reflexivity]. destruct (_ || _); reflexivity. Qed.
Lemma not_fermata_mordent ab be st an ls t : filter (fun r => negb (is_ornament r)) (read_mordents ab be st an ls t) = [].
Proof.
  unfold read_mordents. cbv zeta. set (ms := mordents_of ab be 0 t). generalize (combine (seq 0 (length ms)) ms) as l.
  induction l as [|[i [[k m] z]] l IH]; [reflexivity|]. cbn [map filter make_mordent fst snd is_ornament negb]. exact IH.
Qed.
Lemma not_fermata_turn ab be an ls t : filter (fun r => negb (is_ornament r)) (read_turn ab be an ls t) = [].
Proof.
  unfold read_turn. destruct (span _ t) as [b r]. destruct (span is_turn_char r) as [[|c0 w] r']; [reflexivity|].
  destruct (str_eqb _ _); reflexivity.
Qed.
Lemma reread_fermatas subtrack dst n ns es :
  filter (fun r => negb (is_ornament r)) (reread subtrack dst n ns es)
  = let t := token_text (map (knote_text (fst (write_exprs (Some (k_main n)) es))) (n :: ns)) in
    if char_in ";" t then read_fermata (Some ">"%char) (Some "<"%char) t else [].
Proof.
  unfold reread, read_ornaments. rewrite !filter_app.
  repeat match goal with |- context [filter _ (if ?c then read_trill ?a ?b ?an ?l ?t else [])] =>
    replace (filter (fun r => negb (is_ornament r)) (if c then read_trill a b an l t else [])) with (@nil rexpr) by (destruct c; [rewrite not_fermata_trill|]; reflexivity) end.
  repeat match goal with |- context [filter _ (if ?c then read_mordents ?a ?b ?st ?an ?l ?t else [])] =>
    replace (filter (fun r => negb (is_ornament r)) (if c then read_mordents a b st an l t else [])) with (@nil rexpr) by (destruct c; [rewrite not_fermata_mordent|]; reflexivity) end.
  repeat match goal with |- context [filter _ (if ?c then read_turn ?a ?b ?an ?l ?t else [])] =>
    replace (filter (fun r => negb (is_ornament r)) (if c then read_turn a b an l t else [])) with (@nil rexpr) by (destruct c; [rewrite not_fermata_turn|]; reflexivity) end.
  rewrite lower_semi, orb_diag. cbn [app]. rewrite app_nil_r. cbv zeta. set (t := token_text _).
  destruct (char_in ";" t); [|reflexivity]. unfold read_fermata.
  destruct (negb (char_in ";" t)); [reflexivity|]. destruct (contains (S_ "yy") t); [reflexivity|].
  destruct (contains (S_ ";;") t); [reflexivity|]. destruct (direction _ _ ";" t) as [[|]|]; reflexivity.
Qed.

(** C121.  A note or chord without fermata is read without, one with a fermata
    with one fermata, whatever else stands at the note.  Missing: its type, see
    below; two fermatas at one note. *)
Theorem C121_fermata_partial : forall subtrack dst n ns es1 es2,
  knote_ok n -> Forall knote_ok ns -> Forall regular es1 -> Forall regular es2 ->
  existsb is_fermata_expr (es1 ++ es2) = false ->
  filter (fun r => negb (is_ornament r)) (reread subtrack dst n ns (es1 ++ es2)) = [] /\
  forall upright, length (filter (fun r => negb (is_ornament r)) (reread subtrack dst n ns (es1 ++ EFermata upright :: es2))) = 1%nat.
Proof.
  intros subtrack dst n ns es1 es2 Hn Hns H1 H2 F. rewrite existsb_app in F. apply orb_false_iff in F as [F1 F2].
  destruct (exprs_tame (Some (k_main n)) es1 H1 F1) as [T1 _]. destruct (exprs_tame (Some (k_main n)) es2 H2 F2) as [T2 U2].
  set (e1 := fst (write_exprs (Some (k_main n)) es1)) in *. set (e2 := fst (write_exprs (Some (k_main n)) es2)) in *.
  pose proof (frames_tame e1 e2 (n :: ns) ltac:(constructor; assumption) T1 T2 U2) as Fr.
  set (LR := map (fun n => (lead e1 n, trail e2 n)) (n :: ns)) in *. assert (Ne : LR <> []) by discriminate.
  split.
  - rewrite reread_fermatas, write_exprs_app. cbn [fst]. fold e1 e2.
    change (e1 ++ e2) with (e1 ++ [] ++ e2). rewrite frames_of. fold LR. cbv zeta.
    rewrite (char_in_tame ";" [] LR) by (try reflexivity; assumption). reflexivity.
  - intros upright. rewrite reread_fermatas, write_exprs_app. cbn [fst]. fold e1.
    change (fst (write_exprs (Some (k_main n)) (EFermata upright :: es2))) with ((S_ ";" ++ (if upright then S_ "<" else [])) ++ e2). rewrite frames_of. fold LR. cbv zeta.
    rewrite (char_in_tame ";" _ LR) by (try reflexivity; assumption).
    unfold read_fermata. rewrite (char_in_tame ";" _ LR) by (try reflexivity; assumption).
    replace (char_in ";" (S_ ";" ++ (if upright then S_ "<" else []))) with true by (destruct upright; reflexivity). cbn [negb].
    destruct (contains (S_ "yy") _) eqn:Y.
    { exfalso. change (S_ "yy") with ["y"; "y"]%char in Y. rewrite contains_no_char in Y; [discriminate|].
      rewrite (char_in_tame "y" _ LR) by (try reflexivity; assumption). destruct upright; reflexivity. }
    change (S_ ";;") with [";"; ";"]%char. rewrite semicolon_next by (try reflexivity; assumption). rewrite andb_false_r.
    destruct (direction _ _ ";" _) as [[|]|]; reflexivity.
Qed.
Print Assumptions C121_fermata_partial.

Example C121_fermata_nonvacuous :
  knote_ok nb_g /\ Forall regular [EOrn (Trill nb_fis)] /\
  knote_text (fst (write_exprs (Some (k_main nb_g)) [EOrn (Trill nb_fis); EFermata false; EArpeggio])) nb_g = S_ "8gt<;:J".
Proof. split; [concrete|]. split; [repeat constructor|vm_compute; reflexivity]. Qed.

(** The type of the fermata is never kept: an upright one is read inverted and
    an inverted one upright. *)
Theorem C121_fermata_type_refuted : forall subtrack dst n ns es1 es2 upright,
  knote_ok n -> Forall knote_ok ns -> Forall regular es1 -> Forall regular es2 ->
  existsb is_fermata_expr (es1 ++ es2) = false ->
  exists placement, filter (fun r => negb (is_ornament r)) (reread subtrack dst n ns (es1 ++ EFermata upright :: es2))
  = [RFermata (negb upright) placement].
Proof.
  intros subtrack dst n ns es1 es2 upright Hn Hns H1 H2 F. rewrite existsb_app in F. apply orb_false_iff in F as [F1 F2].
  destruct (exprs_tame (Some (k_main n)) es1 H1 F1) as [T1 _]. destruct (exprs_tame (Some (k_main n)) es2 H2 F2) as [T2 U2].
  set (e1 := fst (write_exprs (Some (k_main n)) es1)) in *. set (e2 := fst (write_exprs (Some (k_main n)) es2)) in *.
  pose proof (frames_tame e1 e2 (n :: ns) ltac:(constructor; assumption) T1 T2 U2) as Fr.
  set (LR := map (fun n => (lead e1 n, trail e2 n)) (n :: ns)) in *. assert (Ne : LR <> []) by discriminate.
  rewrite reread_fermatas, write_exprs_app. cbn [fst]. fold e1.
  change (fst (write_exprs (Some (k_main n)) (EFermata upright :: es2))) with ((S_ ";" ++ (if upright then S_ "<" else [])) ++ e2). rewrite frames_of. fold LR. cbv zeta.
  rewrite (char_in_tame ";" _ LR) by (try reflexivity; assumption).
  unfold read_fermata, direction. rewrite (char_in_tame ";" _ LR) by (try reflexivity; assumption).
  replace (char_in ";" (S_ ";" ++ (if upright then S_ "<" else []))) with true by (destruct upright; reflexivity). cbn [negb].
  destruct (contains (S_ "yy") _) eqn:Y.
  { exfalso. change (S_ "yy") with ["y"; "y"]%char in Y. rewrite contains_no_char in Y; [discriminate|].
    rewrite (char_in_tame "y" _ LR) by (try reflexivity; assumption). destruct upright; reflexivity. }
  change (S_ ";;") with [";"; ";"]%char. rewrite !semicolon_next by (try reflexivity; assumption). rewrite !andb_false_r.
  destruct upright; eexists; reflexivity.
Qed.
Print Assumptions C121_fermata_type_refuted.

(** An upright and an inverted fermata at one note come back as one fermata. *)
Theorem C121_two_fermatas_refuted : exists n dst,
  knote_ok n /\ reread 0 dst n [] [EFermata true; EFermata false] = [RFermata false (Some false)].
Proof. exists nb_g, (fun _ _ => 0). split; [concrete|vm_compute; reflexivity]. Qed.
Print Assumptions C121_two_fermatas_refuted.

(** ** Wavy lines *)

(** C122.  A trill with a wavy line (a trill extension that starts at the note)
    is read as a trill without: no start of a wavy line is ever written. *)
Theorem C122_trill_extension_refuted : forall subtrack dst n ns es1 es2 p,
  knote_ok n -> Forall knote_ok ns -> Forall plain es1 -> Forall plain es2 -> expressible n true p ->
  In (ETrillExt true) (es1 ++ es2) ->
  exists acc placement,
  filter is_ornament (reread subtrack dst n ns (es1 ++ EOrn (Trill p) :: es2)) = [RTrill acc placement false].
Proof. intros. rewrite C120_trill_partial by assumption. eauto. Qed.
Print Assumptions C122_trill_extension_refuted.
Example C122_trill_extension_nonvacuous :
  Forall plain [ETrillExt true] /\ expressible nb_g true nb_a
  /\ fst (write_exprs (Some (k_main nb_g)) [ETrillExt true; EOrn (Trill nb_a)]) = S_ "T"
  /\ read_trill (Some ">"%char) (Some "<"%char) (fun _ => no_autos) [] (S_ "8gTTJ") = [RTrill None None true].
Proof. split; [repeat constructor|]. split; [concrete|]. split; vm_compute; reflexivity. Qed.

(** A note in the middle or at the end of a wavy line is read without a new
    trill. *)
Theorem C122_continuation : forall subtrack dst n ns es1 es2,
  knote_ok n -> Forall knote_ok ns -> Forall plain es1 -> Forall plain es2 ->
  filter is_ornament (reread subtrack dst n ns (es1 ++ ETrillExt false :: es2)) = [].
Proof.
  intros subtrack dst n ns es1 es2 Hn Hns H1 H2. destruct (plain_texts (Some (k_main n)) es1 H1) as (P1 & _ & _).
  destruct (plain_texts (Some (k_main n)) es2 H2) as (P2 & _ & U2).
  unfold reread. rewrite write_exprs_app. cbn [fst snd].
  change (fst (write_exprs (Some (k_main n)) (ETrillExt false :: es2))) with (S_ "TTT" ++ fst (write_exprs (Some (k_main n)) es2)).
  set (e1 := fst (write_exprs (Some (k_main n)) es1)) in *. set (e2 := fst (write_exprs (Some (k_main n)) es2)) in *.
  rewrite frames_of. pose proof (frames_calm e1 e2 (n :: ns) ltac:(constructor; assumption) P1 P2 U2) as C.
  set (LR := map (fun n => (lead e1 n, trail e2 n)) (n :: ns)) in *. assert (Ne : LR <> []) by discriminate.
  unfold read_ornaments. rewrite lower_t, lower_w, lower_m, lower_s, lower_d, orb_diag.
  rewrite !(char_in_frames _ (S_ "TTT") LR) by (try reflexivity; assumption). rewrite !filter_app.
  change (char_in "t" (S_ "TTT") || char_in "T" (S_ "TTT")) with true. cbv iota.
  change (char_in "w" (S_ "TTT") || char_in "W" (S_ "TTT") || (char_in "m" (S_ "TTT") || char_in "M" (S_ "TTT"))) with false.
  change (char_in "s" (S_ "TTT") || char_in "S" (S_ "TTT") || char_in "$" (S_ "TTT")) with false. cbn [filter app]. rewrite app_nil_r.
  assert (T3 : contains (S_ "TTT") (token_text (frames (S_ "TTT") LR)) = true).
  { apply contains_iff. unfold LR, frames. cbn [map]. rewrite text_cons. eexists (lead e1 n), _. rewrite <- !app_assoc. reflexivity. }
  unfold read_trill. rewrite T3. cbn [orb].
  destruct (find_trill 0 0 _) as [[? ?]|]; cbn [filter app];
  (destruct (char_in ";" _); [apply filter_fermata|reflexivity]).
Qed.
Print Assumptions C122_continuation.
Example C122_continuation_nonvacuous :
  knote_ok nb_g /\ knote_text (fst (write_exprs (Some (k_main nb_g)) [ETrillExt false])) nb_g = S_ "8gTTTJ".
Proof. split; [concrete|vm_compute; reflexivity]. Qed.
