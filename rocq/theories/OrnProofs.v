(** Proofs about OrnModel.v. *)
From Coq Require Import List ZArith Ascii String Bool Lia.
From Verif Require Import PyStr PyStrProofs PitchModel PitchProofs ClefModel BarModel BarProofs SignifierProofs LyricProofs2 AccidModel AccidProofs OrnModel.
Import ListNotations.
Local Open Scope Z_scope.
Local Open Scope bool_scope.
Local Open Scope list_scope.

(** ** Base 40 of positions *)

(** Semitones above C0 of a position: the white keys, evenly rounded. *)
Definition white_key (d : Z) : Z := (12 * d + 5) / 7.

Lemma seven_cases d : exists o i, d = 7 * o + i /\ d / 7 = o /\ d mod 7 = i
  /\ (i = 0 \/ i = 1 \/ i = 2 \/ i = 3 \/ i = 4 \/ i = 5 \/ i = 6).
Proof. exists (d / 7), (d mod 7). pose proof (Z.div_mod d 7). pose proof (Z.mod_pos_bound d 7). lia. Qed.
Lemma white_at o i k : 12 * i + 5 = 7 * (k - 12 * o) + (12 * i + 5) mod 7 -> white_key (7 * o + i) = k.
Proof.
  intros E. unfold white_key. pose proof (Z.mod_pos_bound (12 * i + 5) 7).
  symmetry. apply (Z.div_unique _ _ _ ((12 * i + 5) mod 7)); lia.
Qed.
Lemma white_values o : white_key (7 * o + 0) = 12 * o /\ white_key (7 * o + 1) = 12 * o + 2
  /\ white_key (7 * o + 2) = 12 * o + 4 /\ white_key (7 * o + 3) = 12 * o + 5 /\ white_key (7 * o + 4) = 12 * o + 7
  /\ white_key (7 * o + 5) = 12 * o + 9 /\ white_key (7 * o + 6) = 12 * o + 11.
Proof.
  assert (H : forall i r, 12 * i + 5 = 7 * r + (12 * i + 5) mod 7 -> white_key (7 * o + i) = 12 * o + r).
  { intros i r E. apply white_at. rewrite E at 1. lia. }
  repeat match goal with |- _ /\ _ => split end; try (apply H; reflexivity).
  rewrite <- (Z.add_0_r (12 * o)). apply H. reflexivity.
Qed.
Lemma pos_semitones_white d : pos_semitones d = white_key d.
Proof.
  destruct (seven_cases d) as (o & i & E & D & M & C). unfold pos_semitones. rewrite D, M, E. clear D M E.
  pose proof (white_values o) as W.
  destruct C as [C | [C | [C | [C | [C | [C | C]]]]]]; subst i;
    match goal with |- context [nth ?k ?l 0] => let v := eval vm_compute in (nth k l 0) in change (nth k l 0) with v end; lia.
Qed.
Lemma base40_white d : base7ToBase40 d = 2 + 4 * d + white_key d.
Proof.
  destruct (seven_cases d) as (o & i & E & D & M & C). unfold base7ToBase40. rewrite D, M, E. clear D M E.
  pose proof (white_values o) as W.
  destruct C as [C | [C | [C | [C | [C | [C | C]]]]]]; subst i; cbn [Z.eqb Pos.eqb]; lia.
Qed.

(** Base 40 tells a position and an alteration of at most two semitones. *)
Lemma base40_read d x : 0 <= d -> -2 <= x <= 2 ->
  base40ToAccidental (2 + 4 * d + white_key d + x) = x /\ base40ToDiatonic (2 + 4 * d + white_key d + x) = d.
Proof.
  intros H0 Hx. destruct (seven_cases d) as (o & i & E & D & M & C).
  pose proof (white_values o) as W.
  assert (exists b, 2 + 4 * d + white_key d + x = 40 * o + b
    /\ 0 <= b < 40 /\ nth (Z.to_nat b) accidental_table 0 = x
    /\ base40ToDiatonic b = i) as (b & B & R & A & P).
  { rewrite E. clear D M E.
    assert (X : x = -2 \/ x = -1 \/ x = 0 \/ x = 1 \/ x = 2) by lia.
    destruct C as [C | [C | [C | [C | [C | [C | C]]]]]]; subst i;
    [exists (2 + x)|exists (8 + x)|exists (14 + x)|exists (19 + x)|exists (25 + x)|exists (31 + x)|exists (37 + x)];
    (split; [lia|]); (split; [lia|]); clear W; destruct X as [-> | [-> | [-> | [-> | ->]]]]; vm_compute; split; reflexivity. }
  assert (O : 0 <= o) by (rewrite <- D; apply Z.div_pos; lia).
  rewrite B.
  assert (Q : (40 * o + b) / 40 = o) by (symmetry; apply (Z.div_unique _ _ _ b); lia).
  assert (MM : (40 * o + b) mod 40 = b) by (symmetry; apply (Z.mod_unique _ _ o); lia).
  unfold base40ToAccidental, base40ToDiatonic in *. rewrite Q, MM.
  destruct (40 * o + b <? 0) eqn:L; [apply Z.ltb_lt in L; lia|].
  rewrite (Z.mod_small b 40), (Z.div_small b 40) in P by lia.
  destruct (b <? 0) eqn:Lb; [apply Z.ltb_lt in Lb; lia|].
  split; [exact A|]. cbv zeta in *.
  repeat match type of P with context [if ?c then _ else _] => destruct c; [lia|] end. lia.
Qed.

(** ** Written notes *)

(** Characters of a note text that have no meaning for pitches and ornaments. *)
Definition quiet_char (c : ascii) : bool := inert_char c && negb (char_in c (S_ "tTmMwWsS$;y_]")).
Definition quiet (s : str) : bool := forallb quiet_char s.

(** A written note: what stands before the pitch, the pitch, what stands between
    pitch and expressions, and what follows the expressions. *)
Record knote := KNote { k_pre : str; k_step : step; k_oct : Z; k_alter : Z; k_mid : str; k_tail : str }.
Definition knote_text (e : str) (n : knote) : str :=
  note_text (k_pre n) (k_step n) (k_oct n) (k_alter n) (k_mid n ++ e ++ k_tail n).
Definition k_pos (n : knote) : Z := step_index (k_step n) + 7 * k_oct n.
Definition unsigned (s : str) : Prop := match s with [] => True | c :: _ => c <> "<"%char /\ c <> ">"%char end.
Definition knote_ok (n : knote) : Prop :=
  quiet (k_pre n) = true /\ quiet (k_mid n) = true /\ quiet (k_tail n) = true /\ unsigned (k_tail n)
  /\ 0 <= k_oct n /\ -2 <= k_alter n <= 2.

(** Expressions other than trills, mordents and turns. *)
Definition is_tremolo_char (c : ascii) : bool := Ascii.eqb c "@" || is_digit c.
Definition plain (e : expr) : Prop :=
  match e with
  | EOrn _ => False
  | ETremolo s => forallb is_tremolo_char s = true
  | ETrillExt isFirst => isFirst = true
  | _ => True
  end.

Definition plain_char (c : ascii) : bool := char_in c (S_ ";<:@0123456789").
Definition calm_char (c : ascii) : bool := negb (char_in c (S_ "tTmMwWsS$y_] r")).
Definition calm (s : str) : bool := forallb calm_char s.

Lemma plain_calm c : plain_char c = true -> calm_char c = true.
Proof.
  intros H. assert (G : negb (plain_char c) || calm_char c = true) by (apply (all_ascii (fun c => negb (plain_char c) || calm_char c)); vm_compute; reflexivity).
  rewrite H in G. exact G.
Qed.
Lemma plain_inert c : plain_char c = true -> inert_char c = true.
Proof.
  intros H. assert (G : negb (plain_char c) || inert_char c = true) by (apply (all_ascii (fun c => negb (plain_char c) || inert_char c)); vm_compute; reflexivity).
  rewrite H in G. exact G.
Qed.
Lemma quiet_calm c : quiet_char c = true -> calm_char c = true.
Proof.
  intros H. assert (G : negb (quiet_char c) || calm_char c = true) by (apply (all_ascii (fun c => negb (quiet_char c) || calm_char c)); vm_compute; reflexivity).
  rewrite H in G. exact G.
Qed.
Lemma quiet_inert c : quiet_char c = true -> inert_char c = true.
Proof. unfold quiet_char. intros H. apply andb_true_iff in H as [H _]. exact H. Qed.
Lemma tremolo_plain c : is_tremolo_char c = true -> plain_char c = true.
Proof.
  intros H. assert (G : negb (is_tremolo_char c) || plain_char c = true) by (apply (all_ascii (fun c => negb (is_tremolo_char c) || plain_char c)); vm_compute; reflexivity).
  rewrite H in G. exact G.
Qed.
Lemma forallb_weaken {A} (p q : A -> bool) l : (forall x, p x = true -> q x = true) -> forallb p l = true -> forallb q l = true.
Proof. intros H. rewrite !forallb_forall. eauto. Qed.

Lemma plain_text main e : plain e -> forallb plain_char (fst (write_expr main e)) = true /\ snd (write_expr main e) = []
  /\ unsigned (fst (write_expr main e)).
Proof.
  destruct e as [o|s|f|u| |b|]; cbn [plain]; intros H; try contradiction.
  - split; [exact (forallb_weaken _ _ _ tremolo_plain H)|]. split; [reflexivity|].
    cbn [write_expr fst]. destruct s as [|c s]; [exact I|]. cbn [forallb] in H. apply andb_true_iff in H as [H _].
    cbn [unsigned]. split; intros ->; discriminate.
  - subst f. repeat split.
  - destruct u; repeat split; discriminate.
  - repeat split; discriminate.
  - destruct b; repeat split; discriminate.
  - repeat split.
Qed.
Lemma unsigned_app a b : unsigned a -> unsigned b -> unsigned (a ++ b).
Proof. destruct a; [intros _ H; exact H|intros H _; exact H]. Qed.
Lemma plain_texts main es : Forall plain es ->
  forallb plain_char (fst (write_exprs main es)) = true /\ snd (write_exprs main es) = [] /\ unsigned (fst (write_exprs main es)).
Proof.
  induction 1 as [|e es He Hes IH]; [repeat split|].
  destruct (plain_text main e He) as (A & B & C). destruct IH as (A' & B' & C'). cbn [write_exprs map concat fst snd] in *.
  rewrite forallb_app, A, A', B, B'. repeat split. apply unsigned_app; assumption.
Qed.
Lemma write_exprs_app main a b : write_exprs main (a ++ b)
  = (fst (write_exprs main a) ++ fst (write_exprs main b), snd (write_exprs main a) ++ snd (write_exprs main b)).
Proof. unfold write_exprs. cbn [fst snd]. rewrite !map_app, !concat_app. reflexivity. Qed.
Lemma write_exprs_one main es1 o es2 : Forall plain es1 -> Forall plain es2 ->
  write_exprs main (es1 ++ EOrn o :: es2)
  = (fst (write_exprs main es1) ++ fst (write_orn main o) ++ fst (write_exprs main es2), snd (write_orn main o)).
Proof.
  intros H1 H2. rewrite write_exprs_app. destruct (plain_texts main es1 H1) as (_ & B & _).
  destruct (plain_texts main es2 H2) as (_ & B2 & _). rewrite B. cbn [write_exprs map concat fst snd app] in *.
  f_equal. rewrite B2, app_nil_r. reflexivity.
Qed.

(** The calm surroundings of an ornament in a note. *)
Definition lead (e1 : str) (n : knote) : str :=
  k_pre n ++ kernPitchFromM21OctaveAndStep (k_oct n) (k_step n) ++ accid_text (k_alter n) ++ k_mid n ++ e1.
Definition trail (e2 : str) (n : knote) : str := e2 ++ k_tail n.
Lemma knote_frame e1 w e2 n : knote_text (e1 ++ w ++ e2) n = lead e1 n ++ w ++ trail e2 n.
Proof. unfold knote_text, note_text, lead, trail. rewrite <- !app_assoc. reflexivity. Qed.
Lemma forallb_rep p c k : p c = true -> forallb p (rep c k) = true.
Proof. intros H. induction k; [reflexivity|]. cbn. rewrite H. exact IHk. Qed.
Lemma calm_pitch o s : calm (kernPitchFromM21OctaveAndStep o s) = true.
Proof.
  destruct (kernPitch_letters o s) as (low & k & E & _). rewrite E. apply forallb_rep. destruct low, s; reflexivity.
Qed.
Lemma calm_accid a : calm (accid_text a) = true.
Proof.
  unfold accid_text.
  repeat match goal with |- context [if ?c then _ else _] => destruct c end; try reflexivity; apply forallb_rep; reflexivity.
Qed.
Lemma calm_lead e1 n : knote_ok n -> forallb plain_char e1 = true -> calm (lead e1 n) = true.
Proof.
  intros (A & B & _) H. unfold lead, calm in *. rewrite !forallb_app.
  rewrite (forallb_weaken _ _ _ quiet_calm A), (forallb_weaken _ _ _ quiet_calm B), (forallb_weaken _ _ _ plain_calm H).
  pose proof (calm_pitch (k_oct n) (k_step n)) as P. pose proof (calm_accid (k_alter n)) as Q. unfold calm in P, Q. rewrite P, Q. reflexivity.
Qed.
Lemma calm_trail e2 n : knote_ok n -> forallb plain_char e2 = true -> calm (trail e2 n) = true.
Proof.
  intros (_ & _ & C & _) H. unfold trail, calm. rewrite forallb_app.
  rewrite (forallb_weaken _ _ _ quiet_calm C), (forallb_weaken _ _ _ plain_calm H). reflexivity.
Qed.
Lemma unsigned_trail e2 n : knote_ok n -> unsigned e2 -> unsigned (trail e2 n).
Proof. intros (_ & _ & _ & U & _) H. apply unsigned_app; assumption. Qed.

Lemma calm_no_char c s : calm_char c = false -> calm s = true -> char_in c s = false.
Proof.
  intros Hc. unfold calm. induction s as [|x s IH]; [reflexivity|]. cbn [forallb]. intros H. apply andb_true_iff in H as [Hx H].
  rewrite char_in_cons, (IH H), orb_false_r. destruct (Ascii.eqb c x) eqn:E; [|reflexivity].
  apply Ascii.eqb_eq in E. congruence.
Qed.

(** ** A token of framed notes *)

Definition frames (w : str) (LR : list (str * str)) : list str := map (fun lr : str * str => let (L, R) := lr in (L ++ w ++ R)%list) LR.
Definition calm_pair (lr : str * str) : Prop := let (L, R) := lr in calm L = true /\ calm R = true /\ unsigned R.

Lemma text_cons s subs : token_text (s :: subs) = s ++ match subs with [] => [] | _ => S_ " " ++ token_text subs end.
Proof. destruct subs; cbn [token_text join]; [rewrite app_nil_r; reflexivity|reflexivity]. Qed.

Lemma char_in_frames c w LR : calm_char c = false -> Ascii.eqb c " " = false -> LR <> [] -> Forall calm_pair LR ->
  char_in c (token_text (frames w LR)) = char_in c w.
Proof.
  intros Hc Hs Hne H. induction H as [|[L R] LR (A & B & _) H IH]; [congruence|].
  unfold frames in *. cbn [map]. rewrite text_cons, !char_in_app.
  rewrite (calm_no_char c _ Hc A), (calm_no_char c _ Hc B). cbn [orb]. rewrite orb_false_r.
  destruct LR as [|lr' LR].
  - cbn [map]. rewrite orb_false_r. reflexivity.
  - specialize (IH ltac:(discriminate)). cbn [map] in *. rewrite char_in_app, IH.
    change (S_ " ") with [" "%char]. rewrite char_in_cons, Hs. cbn. destruct (char_in c w); reflexivity.
Qed.
Lemma char_in_frame c w L R : calm_char c = false -> calm_pair (L, R) -> char_in c (L ++ w ++ R) = char_in c w.
Proof.
  intros Hc (A & B & _). rewrite !char_in_app, (calm_no_char c _ Hc A), (calm_no_char c _ Hc B). apply orb_false_r.
Qed.

Lemma char_in_lower2 c C s : (forall x, Ascii.eqb c (to_lower x) = Ascii.eqb c x || Ascii.eqb C x) ->
  char_in c (map to_lower s) = char_in c s || char_in C s.
Proof.
  intros H. induction s as [|x s IH]; [reflexivity|]. cbn [map]. rewrite !char_in_cons, IH, H.
  destruct (Ascii.eqb c x), (Ascii.eqb C x), (char_in c s), (char_in C s); reflexivity.
Qed.
Ltac lower_by := intros x; apply Bool.eqb_prop;
  match goal with |- Bool.eqb (Ascii.eqb ?c _) (_ || Ascii.eqb ?C _) = true =>
    apply (all_ascii (fun x => Bool.eqb (Ascii.eqb c (to_lower x)) (Ascii.eqb c x || Ascii.eqb C x))); vm_compute; reflexivity end.
Lemma lower_t s : char_in "t" (map to_lower s) = char_in "t" s || char_in "T" s.
Proof. apply char_in_lower2. lower_by. Qed.
Lemma lower_w s : char_in "w" (map to_lower s) = char_in "w" s || char_in "W" s.
Proof. apply char_in_lower2. lower_by. Qed.
Lemma lower_m s : char_in "m" (map to_lower s) = char_in "m" s || char_in "M" s.
Proof. apply char_in_lower2. lower_by. Qed.
Lemma lower_s s : char_in "s" (map to_lower s) = char_in "s" s || char_in "S" s.
Proof. apply char_in_lower2. lower_by. Qed.
Lemma lower_d s : char_in "$" (map to_lower s) = char_in "$" s || char_in "$" s.
Proof. apply char_in_lower2. lower_by. Qed.
Lemma lower_semi s : char_in ";" (map to_lower s) = char_in ";" s || char_in ";" s.
Proof. apply char_in_lower2. lower_by. Qed.

(** A doubled letter is not found where the letter stands alone. *)
Lemma contains_skip_list p0 p a b : char_in p0 a = false -> contains (p0 :: p) (a ++ b) = contains (p0 :: p) b.
Proof.
  induction a as [|c a IH]; [reflexivity|]. rewrite char_in_cons. intros H. apply orb_false_iff in H as [H1 H2].
  cbn [app]. rewrite contains_skip by exact H1. exact (IH H2).
Qed.
Lemma contains_single c p b : match b with [] => True | x :: _ => Ascii.eqb c x = false end ->
  contains (c :: c :: p) (c :: b) = contains (c :: c :: p) b.
Proof.
  intros H. rewrite contains_cons. cbn [starts_with]. rewrite Ascii.eqb_refl. cbn [andb].
  destruct b as [|x b]; [reflexivity|]. cbn [starts_with]. rewrite H. reflexivity.
Qed.
Lemma no_double_frames c p d LR : calm_char c = false -> Ascii.eqb c " " = false -> LR <> [] -> Forall calm_pair LR ->
  contains (c :: c :: p) (token_text (frames [d] LR)) = false.
Proof.
  intros Hc Hs Hne H. destruct (Ascii.eqb c d) eqn:E.
  2:{ apply contains_no_char. rewrite char_in_frames by assumption. rewrite char_in_cons, E. reflexivity. }
  apply Ascii.eqb_eq in E. subst d.
  induction H as [|[L R] LR (A & B & _) H IH]; [congruence|].
  unfold frames in *. cbn [map]. rewrite text_cons, <- !app_assoc. rewrite contains_skip_list by (apply calm_no_char; assumption).
  cbn [app]. rewrite contains_single.
  - rewrite contains_skip_list by (apply calm_no_char; assumption). destruct LR as [|lr' LR]; [reflexivity|].
    cbn [map] in *. change (S_ " ") with [" "%char]. cbn [app]. rewrite contains_skip by exact Hs. apply IH. discriminate.
  - pose proof (calm_no_char c _ Hc B) as NB. destruct R as [|x r]; cbn [app].
    + destruct LR as [|lr' LR]; cbn [map]; [exact I|]. cbn. exact Hs.
    + rewrite char_in_cons in NB. apply orb_false_iff in NB as [NB _]. exact NB.
Qed.

(** ** Reading a trill *)
Definition is_trill (c : ascii) : bool := Ascii.eqb c "t" || Ascii.eqb c "T".
Lemma find_trill_calm i k L d rest : calm L = true -> is_trill d = true ->
  match rest with [] => True | x :: _ => is_trill x = false end ->
  find_trill i k (L ++ d :: rest) = Some ((i + length L)%nat, k).
Proof.
  intros H Hd Hr. revert i. induction L as [|c L IH]; intros i.
  - cbn [app find_trill length]. rewrite Nat.add_0_r.
    assert (Sp : Ascii.eqb d " " = false) by (unfold is_trill in Hd; destruct (Ascii.eqb d " ") eqn:E; [apply Ascii.eqb_eq in E; subst d; discriminate|reflexivity]).
    rewrite Sp. unfold is_trill in Hd. rewrite Hd. destruct rest as [|x rest]; [reflexivity|]. unfold is_trill in Hr. rewrite Hr. reflexivity.
  - unfold calm in *. cbn [forallb] in H. apply andb_true_iff in H as [Hc H]. cbn [app find_trill length].
    assert (Sp : Ascii.eqb c " " = false /\ Ascii.eqb c "t" || Ascii.eqb c "T" = false).
    { split; [destruct (Ascii.eqb c " ") eqn:E|destruct (Ascii.eqb c "t") eqn:E; [|destruct (Ascii.eqb c "T") eqn:E2]]; try reflexivity;
      match goal with E : Ascii.eqb _ _ = true |- _ => apply Ascii.eqb_eq in E; subst c; discriminate end. }
    destruct Sp as [-> ->]. rewrite (IH H). f_equal. f_equal. lia.
Qed.
Lemma nth_error_after {A} (L : list A) x r : nth_error (L ++ x :: r) (S (length L)) = nth_error r 0.
Proof. induction L as [|y L IH]; [destruct r; reflexivity|]. cbn [app length]. exact IH. Qed.
Lemma place_none L x r : match r with [] => True | c :: _ => c <> "<"%char /\ c <> ">"%char end ->
  place_at (Some ">"%char) (Some "<"%char) (L ++ x :: r) (length L) = None.
Proof.
  intros H. unfold place_at. rewrite nth_error_after. destruct r as [|c r]; [reflexivity|]. cbn [nth_error is_sig].
  destruct H as [H1 H2]. apply Ascii.eqb_neq in H1, H2. rewrite Ascii.eqb_sym in H1, H2. rewrite H1, H2. reflexivity.
Qed.
Lemma read_trill_frames an ls d LR : is_trill d = true -> LR <> [] -> Forall calm_pair LR ->
  read_trill (Some ">"%char) (Some "<"%char) an ls (token_text (frames [d] LR))
  = [RTrill (layout_accid false (a_trill (an 0%nat)) (layout_parameter ls (S_ "TR") (S_ "acc"))) None false].
Proof.
  intros Hd Hne H. unfold read_trill.
  change (S_ "TTT") with ["T"; "T"; "T"]%char. change (S_ "ttt") with ["t"; "t"; "t"]%char.
  change (S_ "TT") with ["T"; "T"]%char. change (S_ "tt") with ["t"; "t"]%char.
  rewrite !no_double_frames by (try reflexivity; assumption). cbn [orb].
  destruct LR as [|[L R] LR]; [congruence|]. destruct (Forall_inv H) as (A & B & U). pose proof (Forall_inv_tail H) as H'. unfold frames. cbn [map].
  rewrite text_cons, <- !app_assoc. cbn [app].
  set (after := R ++ match map _ LR with [] => [] | _ :: _ => _ end).
  assert (AF : match after with [] => True | x :: _ => is_trill x = false /\ x <> "<"%char /\ x <> ">"%char end).
  { subst after. destruct R as [|x r]; cbn [app].
    - destruct LR; cbn [map]; [exact I|]. cbn. split; [reflexivity|split; discriminate].
    - split; [|exact U]. unfold calm in B. cbn [forallb] in B. apply andb_true_iff in B as [Bx _].
      unfold is_trill. destruct (Ascii.eqb x "t") eqn:E; [apply Ascii.eqb_eq in E; subst; discriminate|].
      destruct (Ascii.eqb x "T") eqn:E'; [apply Ascii.eqb_eq in E'; subst; discriminate|reflexivity]. }
  rewrite find_trill_calm; [|assumption|assumption|destruct after; [exact I|apply AF]]. cbn [Nat.add].
  rewrite place_none; [reflexivity|]. destruct after; [exact I|apply AF].
Qed.

(** ** Reading a mordent of a single note *)
Lemma calm_no_mordent s : calm s = true -> forallb (fun c => negb (is_mordent c)) s = true.
Proof.
  apply forallb_weaken. intros c H.
  assert (G : negb (calm_char c) || negb (is_mordent c) = true) by (apply (all_ascii (fun c => negb (calm_char c) || negb (is_mordent c))); vm_compute; reflexivity).
  rewrite H in G. exact G.
Qed.
Lemma span_head p (s : str) : match s with [] => True | c :: _ => p c = false end -> span p s = ([], s).
Proof. destruct s as [|c s]; [reflexivity|]. cbn. intros ->. reflexivity. Qed.
Lemma find_mordent_frame d L R : is_mordent d = true -> calm_pair (L, R) ->
  find_mordent (Some ">"%char) (Some "<"%char) (L ++ [d] ++ R) = Some [d].
Proof.
  intros Hd (A & B & U). unfold find_mordent. rewrite span_app_all; [|apply calm_no_mordent; exact A|change (negb (is_mordent d) = false); rewrite Hd; reflexivity].
  cbn [snd app span]. rewrite Hd. rewrite (span_head is_mordent R).
  - cbn [app]. rewrite span_head; [reflexivity|]. destruct R as [|x r]; [exact I|].
    unfold is_mark, is_sig. destruct U as [U1 U2]. unfold calm in B. cbn [forallb] in B. apply andb_true_iff in B as [Bx _].
    destruct (Ascii.eqb x "y") eqn:E; [apply Ascii.eqb_eq in E; subst; discriminate|].
    apply Ascii.eqb_neq in U1, U2. rewrite Ascii.eqb_sym in U1, U2. rewrite U1, U2. reflexivity.
  - destruct R as [|x r]; [exact I|]. pose proof (calm_no_mordent _ B) as N. cbn [forallb] in N.
    apply andb_true_iff in N as [N _]. apply negb_true_iff. exact N.
Qed.
Lemma read_mordent_single an ls subtrack d L R : is_mordent d = true -> calm_pair (L, R) ->
  read_mordents (Some ">"%char) (Some "<"%char) subtrack an ls [L ++ [d] ++ R]
  = [RMordent (negb (char_in d (S_ "wW")))
       (layout_accid true (a_mordent (an 0%nat)) (layout_parameter ls (S_ "MOR") (S_ "acc")))
       (Some (Nat.eqb subtrack 0 || Nat.odd subtrack))].
Proof.
  intros Hd H. unfold read_mordents. cbn [mordents_of].
  assert (NR : char_in "r" (L ++ [d] ++ R) = false).
  { rewrite char_in_frame by (try reflexivity; assumption). rewrite char_in_cons.
    destruct (Ascii.eqb "r" d) eqn:E; [apply Ascii.eqb_eq in E; subst d; discriminate|reflexivity]. }
  rewrite NR, find_mordent_frame by assumption.
  assert (Y : char_in "y" [d] = false /\ char_in "<" [d] = false /\ char_in ">" [d] = false).
  { rewrite !char_in_cons. repeat split; match goal with |- Ascii.eqb ?c d || _ = false =>
      destruct (Ascii.eqb c d) eqn:E; [apply Ascii.eqb_eq in E; subst d; discriminate|reflexivity] end. }
  destruct Y as (Y & YL & YG). rewrite Y. cbn [length seq combine map fst snd make_mordent]. rewrite YL, YG. f_equal. f_equal. f_equal.
  unfold default_place. destruct (Nat.eqb subtrack 0); reflexivity.
Qed.

(** ** Reading a turn *)
Lemma calm_no_turn s : calm s = true -> forallb (fun c => negb (is_turn_char c)) s = true.
Proof.
  apply forallb_weaken. intros c H.
  assert (G : negb (calm_char c) || negb (is_turn_char c) = true) by (apply (all_ascii (fun c => negb (calm_char c) || negb (is_turn_char c))); vm_compute; reflexivity).
  rewrite H in G. exact G.
Qed.
Definition turn_of (w : str) (delayed inverted : bool) : Prop :=
  forallb is_turn_char w = true /\ (3 <= length w)%nat /\
  match w with
  | c0 :: c1 :: _ => delayed = negb (Ascii.eqb c0 "s") /\ inverted = (if negb delayed then Ascii.eqb c1 "$" else Ascii.eqb c0 "$")
  | _ => False
  end.
Lemma last_split {A} (w : list A) : (1 <= length w)%nat -> exists a x, w = a ++ [x].
Proof. intros H. destruct (@exists_last _ w) as (a & x & E); [destruct w; [cbn in H; lia|discriminate]|eauto]. Qed.
Lemma read_turn_frames an ls w delayed inverted LR : turn_of w delayed inverted -> LR <> [] -> Forall calm_pair LR ->
  layout_parameter ls (S_ "TURN") (S_ "facc") = [] ->
  read_turn (Some ">"%char) (Some "<"%char) an ls (token_text (frames w LR))
  = [RTurn inverted delayed
       (layout_accid true (a_upper (an 0%nat)) (layout_parameter ls (S_ "TURN") (S_ "uacc")))
       (layout_accid true (a_lower (an 0%nat)) (layout_parameter ls (S_ "TURN") (S_ "lacc"))) None].
Proof.
  intros (W & Len & Hw) Hne H F. destruct LR as [|[L R] LR]; [congruence|]. destruct (Forall_inv H) as (A & B & U). pose proof (Forall_inv_tail H) as H'.
  unfold frames. cbn [map]. rewrite text_cons, <- !app_assoc.
  set (after := R ++ match map _ LR with [] => [] | _ :: _ => _ end).
  assert (AF : match after with [] => True | x :: _ => is_turn_char x = false /\ x <> "<"%char /\ x <> ">"%char end).
  { subst after. destruct R as [|x r]; cbn [app].
    - destruct LR; cbn [map]; [exact I|]. cbn. split; [reflexivity|split; discriminate].
    - split; [|exact U]. pose proof (calm_no_turn _ B) as N. cbn [forallb] in N. apply andb_true_iff in N as [N _]. apply negb_true_iff. exact N. }
  clearbody after. unfold read_turn. rewrite span_app_all; [|apply calm_no_turn; exact A|].
  2:{ destruct w as [|c w]; [cbn in Len; lia|]. cbn [app forallb] in *. apply andb_true_iff in W as [-> _]. reflexivity. }
  rewrite span_app_all; [|exact W|destruct after; [exact I|apply AF]].
  assert (P : place_at (Some ">"%char) (Some "<"%char) (L ++ w ++ after) (length (L) + length w - 1) = None).
  { destruct (last_split w ltac:(lia)) as (a & x & ->). rewrite app_length. cbn [length].
    replace (length (L) + (length a + 1) - 1)%nat with (length (L ++ a)) by (rewrite app_length; lia).
    rewrite <- app_assoc. cbn [app]. rewrite app_assoc. apply place_none. destruct after; [exact I|apply AF]. }
  rewrite P, F. destruct w as [|c0 [|c1 w]]; try contradiction. destruct Hw as [D I].
  assert (Nq : str_eqb (c0 :: c1 :: w) (S_ "s") = false) by (apply str_eqb_neq; discriminate).
  rewrite Nq, <- D, <- I. reflexivity.
Qed.

(** ** The analysis of a written note *)
Lemma note_base7 pre s o a suf : inert pre = true -> inert suf = true -> 0 <= o ->
  kernToBase7 (note_text pre s o a suf) = step_index s + 7 * o.
Proof.
  intros H1 H2 Ho. unfold kernToBase7. rewrite note_diatonic, note_octave by assumption. cbv zeta.
  pose proof (step_index_range s). destruct (step_index s <? 0) eqn:E; [apply Z.ltb_lt in E; lia|reflexivity].
Qed.
Lemma base40_of_pos s o : base40_pc s + 40 * o = 2 + 4 * (step_index s + 7 * o) + white_key (step_index s + 7 * o).
Proof.
  replace (step_index s + 7 * o) with (7 * o + step_index s) by lia. pose proof (white_values o) as W.
  destruct s; cbn [step_index base40_pc]; lia.
Qed.
Lemma k_base40 pre n suf : inert pre = true -> inert suf = true -> -2 <= k_alter n <= 2 ->
  kernToBase40 (note_text pre (k_step n) (k_oct n) (k_alter n) suf) = 2 + 4 * k_pos n + white_key (k_pos n) + k_alter n.
Proof.
  intros H1 H2 Ha. rewrite note_base40; try assumption; [|destruct (k_step n); cbn [base40_pc]; lia].
  unfold k_pos. pose proof (base40_of_pos (k_step n) (k_oct n)). lia.
Qed.
Lemma replace_no_r s new : char_in "r" s = false -> replace (S_ "r") new s = s.
Proof.
  intros H. unfold replace. apply replace_none; [discriminate|].
  apply contains_false. apply contains_no_char. exact H.
Qed.
(** What the tests of the analysis see is the ornament only. *)
Definition analysed (dst : Z -> Z) (b40 : Z) (w s : str) : autos :=
  if char_in "t" w then Autos (auto_of dst b40 5) None None None
  else if char_in "T" w then Autos (auto_of dst b40 6) None None None
  else if char_in "M" w then Autos None (auto_of dst b40 6) None None
  else if char_in "m" w then Autos None (auto_of dst b40 5) None None
  else if char_in "W" w then Autos None (auto_of dst b40 (-6)) None None
  else if char_in "w" w then Autos None (auto_of dst b40 (-5)) None None
  else if char_in "$" w then turn_autos dst b40 s true
  else if char_in "S" w then turn_autos dst b40 s false
  else no_autos.
Definition orn_char (c : ascii) : bool := char_in c (S_ "tTmMwWsS$").
Lemma orn_inert c : orn_char c = true -> inert_char c = true.
Proof.
  intros H. assert (G : negb (orn_char c) || inert_char c = true) by (apply (all_ascii (fun c => negb (orn_char c) || inert_char c)); vm_compute; reflexivity).
  rewrite H in G. exact G.
Qed.
Lemma orn_no c s : orn_char c = false -> forallb orn_char s = true -> char_in c s = false.
Proof.
  intros Hc. induction s as [|x s IH]; [reflexivity|]. cbn [forallb]. intros H. apply andb_true_iff in H as [Hx H].
  rewrite char_in_cons, (IH H), orb_false_r. destruct (Ascii.eqb c x) eqn:E; [apply Ascii.eqb_eq in E; congruence|reflexivity].
Qed.
Lemma analyse_note dst chord e1 w e2 n : knote_ok n -> forallb plain_char e1 = true -> forallb plain_char e2 = true -> unsigned e2 ->
  forallb orn_char w = true ->
  analyse dst chord (knote_text (e1 ++ w ++ e2) n)
  = analysed dst (2 + 4 * k_pos n + white_key (k_pos n) + k_alter n) w (knote_text (e1 ++ w ++ e2) n).
Proof.
  intros Ok H1 H2 U2 Hw. pose proof (calm_lead e1 n Ok H1) as CL. pose proof (calm_trail e2 n Ok H2) as CT.
  assert (CP : calm_pair (lead e1 n, trail e2 n)) by (split; [exact CL|split; [exact CT|apply unsigned_trail; assumption]]).
  assert (In : forall c, calm_char c = false -> char_in c (knote_text (e1 ++ w ++ e2) n) = char_in c w).
  { intros c Hc. rewrite knote_frame. apply char_in_frame; assumption. }
  unfold analyse.
  assert (R : (if chord then replace (S_ "r") (S_ "R") (knote_text (e1 ++ w ++ e2) n) else knote_text (e1 ++ w ++ e2) n) = knote_text (e1 ++ w ++ e2) n).
  { destruct chord; [|reflexivity]. apply replace_no_r. rewrite In by reflexivity. apply orn_no; [reflexivity|exact Hw]. }
  rewrite R. clear R. destruct Ok as (A & B & C & U & O & AL).
  assert (IP : inert (k_pre n) = true) by exact (forallb_weaken _ _ _ quiet_inert A).
  assert (IS : inert (k_mid n ++ (e1 ++ w ++ e2) ++ k_tail n) = true).
  { unfold inert. rewrite !forallb_app, (forallb_weaken _ _ _ quiet_inert B), (forallb_weaken _ _ _ quiet_inert C),
      (forallb_weaken _ _ _ plain_inert H1), (forallb_weaken _ _ _ plain_inert H2), (forallb_weaken _ _ _ orn_inert Hw). reflexivity. }
  assert (B7 : kernToBase7 (knote_text (e1 ++ w ++ e2) n) <? 0 = false).
  { unfold knote_text. rewrite note_base7 by assumption. apply Z.ltb_ge. pose proof (step_index_range (k_step n)). lia. }
  assert (B40 : kernToBase40 (knote_text (e1 ++ w ++ e2) n) = 2 + 4 * k_pos n + white_key (k_pos n) + k_alter n).
  { unfold knote_text. apply k_base40; assumption. }
  cbv zeta. rewrite B7, B40. set (s := knote_text (e1 ++ w ++ e2) n) in *.
  assert (Y : char_in "y" s = false) by (rewrite In by reflexivity; apply orn_no; [reflexivity|exact Hw]).
  assert (NY : contains (S_ "ny") s = false).
  { apply contains_false. intros (a & b & E). rewrite E, !char_in_app in Y. apply orb_false_iff in Y as [_ Y].
    apply orb_false_iff in Y as [Y _]. discriminate. }
  rewrite NY, andb_false_r. cbn [andb].
  assert (T : char_in "_" s = false /\ char_in "]" s = false) by (split; rewrite In by reflexivity; apply orn_no; try reflexivity; exact Hw).
  destruct T as [-> ->]. cbn [orb andb]. rewrite !In by reflexivity. reflexivity.
Qed.

(** The neighbour found at a minor or major second is the neighbour meant. *)
Lemma auto_above dst d a x k : 0 <= d -> -2 <= x <= 2 -> white_key (d + 1) + x - (white_key d + a) = k ->
  auto_of dst (2 + 4 * d + white_key d + a) (4 + k) = Some (x, negb (dst (d + 1) =? x)).
Proof.
  intros Hd Hx E. unfold auto_of. destruct (base40_read (d + 1) x) as [A D]; [lia|lia|].
  replace (2 + 4 * d + white_key d + a + (4 + k)) with (2 + 4 * (d + 1) + white_key (d + 1) + x) by lia.
  cbv zeta. rewrite A, D. reflexivity.
Qed.
Lemma auto_below dst d a x k : 1 <= d -> -2 <= x <= 2 -> white_key d + a - (white_key (d - 1) + x) = k ->
  auto_of dst (2 + 4 * d + white_key d + a) (- (4 + k)) = Some (x, negb (dst (d - 1) =? x)).
Proof.
  intros Hd Hx E. unfold auto_of. destruct (base40_read (d - 1) x) as [A D]; [lia|lia|].
  replace (2 + 4 * d + white_key d + a + - (4 + k)) with (2 + 4 * (d - 1) + white_key (d - 1) + x) by lia.
  cbv zeta. rewrite A, D. reflexivity.
Qed.
Lemma find_char_calm c L r : calm L = true -> calm_char c = false -> find_char c (L ++ c :: r) = length L.
Proof.
  intros H Hc. unfold calm in H. induction L as [|x L IH]; [cbn; rewrite Ascii.eqb_refl; reflexivity|].
  cbn [forallb] in H. apply andb_true_iff in H as [Hx H]. cbn [app find_char length].
  destruct (Ascii.eqb c x) eqn:E; [apply Ascii.eqb_eq in E; congruence|]. rewrite (IH H). reflexivity.
Qed.
Lemma find_char_skip c y L r : Ascii.eqb c y = false -> calm L = true -> calm_char c = false ->
  find_char c (L ++ y :: c :: r) = S (length L).
Proof.
  intros Hy H Hc. unfold calm in H. induction L as [|x L IH]; [cbn; rewrite Hy, Ascii.eqb_refl; reflexivity|].
  cbn [forallb] in H. apply andb_true_iff in H as [Hx H]. cbn [app find_char length].
  destruct (Ascii.eqb c x) eqn:E; [apply Ascii.eqb_eq in E; congruence|]. rewrite (IH H). reflexivity.
Qed.

(** The analysis of a turn: the two characters behind 'S' or '$'. *)
Definition size_char (u : bool) : ascii := if u then "S"%char else "s"%char.      (* major second? *)
Definition size_of (u : bool) : Z := if u then 6 else 5.
Definition turn_text (inverted delayed u l : bool) : str :=
  (if delayed then [] else ["s"%char]) ++ [if inverted then "$" else "S"]%char ++ [size_char u; size_char l].
Lemma char_at_after L (w : str) r k c : nth_error w k = Some c -> char_at (L ++ w ++ r) (length L + k) = Some c.
Proof.
  intros H. unfold char_at. rewrite nth_error_app2 by lia. replace (length L + k - length L)%nat with k by lia.
  rewrite nth_error_app1; [exact H|]. apply nth_error_Some. congruence.
Qed.
Lemma turn_step_size u : turn_step (Some (size_char u)) = size_of u.
Proof. destruct u; reflexivity. Qed.
Lemma turn_autos_text dst b40 L r inverted delayed u l : calm L = true ->
  turn_autos dst b40 (L ++ turn_text inverted delayed u l ++ r) inverted
  = let up := size_of (if inverted then l else u) in
    let lo := size_of (if inverted then u else l) in
    let d := base40ToDiatonic b40 in
    Autos None None
      (Some (base40ToAccidental (b40 + up), negb (base40ToAccidental (b40 + up) =? dst (d + 1))))
      (Some (base40ToAccidental (b40 + - lo), negb (base40ToAccidental (b40 + - lo) =? dst (d - 1)))).
Proof.
  intros H. unfold turn_autos.
  set (h := if inverted then "$"%char else "S"%char). set (s := L ++ turn_text inverted delayed u l ++ r).
  assert (Fi : exists k, find_char h s = (length L + k)%nat
    /\ nth_error (turn_text inverted delayed u l) (k + 1) = Some (size_char u)
    /\ nth_error (turn_text inverted delayed u l) (k + 2) = Some (size_char l)).
  { destruct delayed.
    - exists 0%nat. split; [|split; reflexivity]. rewrite Nat.add_0_r. subst s h. unfold turn_text. cbn [app].
      apply find_char_calm; [exact H|destruct inverted; reflexivity].
    - exists 1%nat. split; [|split; reflexivity]. rewrite Nat.add_1_r. subst s h. unfold turn_text. cbn [app].
      apply find_char_skip; [destruct inverted; reflexivity|exact H|destruct inverted; reflexivity]. }
  destruct Fi as (k & -> & N1 & N2). rewrite <- !Nat.add_assoc.
  assert (C1 : char_at s (length L + (k + 1)) = Some (size_char u)) by (apply char_at_after; exact N1).
  assert (C2 : char_at s (length L + (k + 2)) = Some (size_char l)) by (apply char_at_after; exact N2).
  rewrite C1, C2, !turn_step_size. cbv zeta. destruct inverted, u, l; reflexivity.
Qed.

(** ** Layout parameters of accidentals *)
Lemma layout_parameter_one c k v : layout_parameter [(c, k, v)] c k = v.
Proof. cbn. rewrite !str_eqb_refl. reflexivity. Qed.
Lemma acc_layout_value cat key p : layout_parameter (acc_layout cat key p) (S_ cat) (S_ key)
  = match op_shown p with Some true => accid_modifier (op_alter p) | _ => [] end.
Proof.
  unfold acc_layout. destruct (op_shown p) as [[|]|]; try reflexivity.
  destruct (accid_modifier (op_alter p)) as [|c m]; [reflexivity|apply layout_parameter_one].
Qed.
Lemma layout_parameter_app l1 l2 c k : layout_parameter (l1 ++ l2) c k
  = if existsb (fun x : layout => let '(c', k', _) := x in str_eqb c' c && str_eqb k' k) l1 then layout_parameter l1 c k else layout_parameter l2 c k.
Proof.
  induction l1 as [|[[c' k'] v] l1 IH]; [reflexivity|]. cbn [app layout_parameter existsb].
  destruct (str_eqb c' c && str_eqb k' k); [reflexivity|]. cbn [orb]. exact IH.
Qed.
Lemma turn_layout_upper u l : layout_parameter (acc_layout "TURN" "uacc" u ++ acc_layout "TURN" "lacc" l) (S_ "TURN") (S_ "uacc")
  = match op_shown u with Some true => accid_modifier (op_alter u) | _ => [] end.
Proof.
  rewrite layout_parameter_app, acc_layout_value. unfold acc_layout.
  destruct (op_shown u) as [[|]|]; [destruct (accid_modifier (op_alter u)) as [|c m]; [|reflexivity]| |]; cbn [existsb];
  (destruct (op_shown l) as [[|]|]; [destruct (accid_modifier (op_alter l))| |]; reflexivity).
Qed.
Lemma turn_layout_lower u l : layout_parameter (acc_layout "TURN" "uacc" u ++ acc_layout "TURN" "lacc" l) (S_ "TURN") (S_ "lacc")
  = match op_shown l with Some true => accid_modifier (op_alter l) | _ => [] end.
Proof.
  rewrite layout_parameter_app, acc_layout_value. unfold acc_layout.
  destruct (op_shown u) as [[|]|]; [destruct (accid_modifier (op_alter u)) as [|c m]| |]; reflexivity.
Qed.
Lemma turn_layout_flip u l : layout_parameter (acc_layout "TURN" "uacc" u ++ acc_layout "TURN" "lacc" l) (S_ "TURN") (S_ "facc") = [].
Proof.
  unfold acc_layout.
  destruct (op_shown u) as [[|]|]; [destruct (accid_modifier (op_alter u)) as [|c m]| |];
  (destruct (op_shown l) as [[|]|]; [destruct (accid_modifier (op_alter l)) as [|c' m']| |]; reflexivity).
Qed.
Lemma modifier_read kt a x : -3 <= x <= 3 -> x <> 0 -> layout_accid kt a (accid_modifier x) = Some (x, true).
Proof.
  intros H H0. assert (X : x = -3 \/ x = -2 \/ x = -1 \/ x = 1 \/ x = 2 \/ x = 3) by lia.
  destruct X as [-> | [-> | [-> | [-> | [-> | ->]]]]]; destruct kt; reflexivity.
Qed.
Lemma modifier_zero kt a : layout_accid kt a (accid_modifier 0) = a.
Proof. reflexivity. Qed.
Lemma no_layout kt a : layout_accid kt a [] = a.
Proof. reflexivity. Qed.
