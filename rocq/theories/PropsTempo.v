(** C142: metronome marks with a note in their text, written to Humdrum and read. *)
From Coq Require Import Lia QArith Qround ZArith.
From Verif Require Import PyStr PyStrProofs TempoModel TempoProofs.
Local Close Scope Q_scope.

(** ** The texts *)
Definition note_chars : list N := [60576; 60577; 60578; 60579; 60581; 60583; 60585; 60587; 60589; 60591; 60593; 60595; 60597]%N.
(** Characters of the words around: no notes, no opening bracket, no characters
    that have a meaning when read, no newline. *)
Definition calm (c : N) : Prop := ~ In c note_chars /\ ~ In c [ch "["; ch "&"; ch "\"; 10%N].
(** How they are shown again: thin spaces go, other spaces are plain ones. *)
Definition shown (c : N) : text :=
  if existsb (N.eqb c) [8201; 8202]%N then [] else if existsb (N.eqb c) [160; 9; 13; 11; 12]%N then [32%N] else [c].
Definition dotted (c : N) : Prop := In c [60599; 8201; 8202]%N.
Definition gap (c : N) : Prop := In c [32; 160; 8201; 8202]%N.
Definition begins_clean (s : text) : Prop := match s with c :: _ => space c = false | [] => True end.
Definition ends_clean (s : text) : Prop := begins_clean (rev s).
Definition dots_in (D : text) : nat := count_occ N.eq_dec D 60599%N.
(** Decimal numbers. *)
Definition decimal (n : N) (frac : option text) : text :=
  map N_of_ascii (show_N n) ++ match frac with None => [] | Some ds => ch "." :: ds end.
Definition half_up (n : N) (frac : option text) : N :=
  match frac with Some (d :: _) => if N.leb 53 d then (n + 1)%N else n | _ => n end.
Definition ends_number (frac : option text) (R : text) : Prop :=
  match flat_map shown R with
  | [] => True
  | c :: _ => ~ (48 <= c <= 57)%N /\ (frac = None -> c <> ch ".")
  end.
Definition digits (ds : text) : Prop := Forall (fun c => 48 <= c <= 57)%N ds.
(** A hair space after an opening parenthesis. *)
Definition opened (a : text) : text := if N.eqb (last a 0%N) (ch "(") then a ++ [8202%N] else a.
(** The text as the reader makes it. *)
Definition tempo_text (a : text) (t : note_type) (dots : nat) (c : text) : text :=
  opened a ++ char_of t :: flat_map (fun _ => [8201; 60599]%N) (seq 0 dots) ++ [160; 61; 160]%N ++ c.

(** ** Writing *)
Definition add_text (x : text) (r : option text) : option text := match r with Some y => Some (x ++ y) | None => None end.
Lemma add_add x y r : add_text x (add_text y r) = add_text (x ++ y) r.
Proof. destruct r; [|reflexivity]. cbn. rewrite app_assoc. reflexivity. Qed.
Lemma name_none c : ~ In c note_chars -> name_of c = None.
Proof.
  intro H. unfold name_of. destruct (find (fun p => N.eqb (fst p) c) note_names) as [[x y]|] eqn:E; [|reflexivity].
  apply find_some in E as [I E]. cbn [fst] in E. apply N.eqb_eq in E. subst x. exfalso. apply H.
  assert (M : In c (map fst note_names)) by (apply in_map_iff; exists (c, y); auto). exact M.
Qed.
Definition plain0 (c : N) : text := if existsb (N.eqb c) [8201; 8202]%N then [] else if N.eqb c 160 then [32%N] else [c].
Lemma translate_calm A s : Forall calm A -> translate_from false (A ++ s) = add_text (flat_map plain0 A) (translate_from false s).
Proof.
  induction A as [|c A IH]; intro H; [cbn [app flat_map add_text]; destruct (translate_from false s); reflexivity|].
  apply Forall_cons_iff in H as [[Hc _] H]. cbn [app translate_from andb]. rewrite (name_none c Hc). cbn [flat_map]. rewrite (IH H).
  set (r := translate_from false s). set (y := flat_map plain0 A). unfold plain0, thin, hair, nbsp. cbn [existsb].
  destruct (N.eqb c 8201); cbn [orb]; [reflexivity|]. destruct (N.eqb c 8202); cbn [orb]; [reflexivity|].
  destruct (N.eqb c 160); cbn [app]; destruct r; reflexivity.
Qed.
Definition written_name (t : note_type) : text := match name_of (char_of t) with Some n => n | None => [] end.
Lemma translate_note t s : translate_from false (char_of t :: s) = add_text (ch "[" :: written_name t) (translate_from true s).
Proof. destruct t; reflexivity. Qed.
Fixpoint dashes (n : nat) : text := match n with O => [] | S k => U "-dot" ++ dashes k end.
Lemma translate_dots D s : Forall dotted D -> translate_from true (D ++ s) = add_text (dashes (dots_in D)) (translate_from true s).
Proof.
  induction D as [|c D IH]; intro H; [cbn; destruct (translate_from true s); reflexivity|].
  apply Forall_cons_iff in H as [Hc H]. specialize (IH H). cbn in Hc. destruct Hc as [<-|[<-|[<-|[]]]].
  - cbn [app]. unfold dots_in. cbn [count_occ]. change (if N.eq_dec 60599 60599 then _ else _) with (S (count_occ N.eq_dec D 60599%N)).
    fold (dots_in D). cbn [dashes]. rewrite <- add_add, <- IH. reflexivity.
  - exact IH.
  - exact IH.
Qed.
Lemma gap_calm E : Forall gap E -> Forall calm E.
Proof.
  apply Forall_impl. intros c H. cbn in H. destruct H as [<-|[<-|[<-|[<-|[]]]]]; split; intro I; cbn in I;
    repeat (destruct I as [I|I]; [discriminate|]); destruct I.
Qed.
Lemma gap_spaces E : Forall gap E -> forallb space (flat_map plain0 E) = true.
Proof.
  induction E as [|c E IH]; intro H; [reflexivity|]. apply Forall_cons_iff in H as [Hc H]. cbn [flat_map]. rewrite forallb_app, (IH H).
  cbn in Hc. destruct Hc as [<-|[<-|[<-|[<-|[]]]]]; reflexivity.
Qed.
Lemma translate_gap E s : Forall gap E ->
  exists e, translate_from true (E ++ ch "=" :: s) = add_text (ch "]" :: e ++ [ch "="]) (translate_from false s)
    /\ forallb space e = true /\ Forall (fun c => c = 32%N) e.
Proof.
  induction E as [|c E IH]; intro H.
  - exists []. split; [|split; [reflexivity|constructor]]. reflexivity.
  - apply Forall_cons_iff in H as [Hc H]. destruct (IH H) as (e & Ee & Se & Te). cbn in Hc.
    assert (Plain : exists e', translate_from false (E ++ ch "=" :: s) = add_text (e' ++ [ch "="]) (translate_from false s)
        /\ forallb space e' = true /\ Forall (fun c => c = 32%N) e').
    { exists (flat_map plain0 E). split; [|split; [apply gap_spaces, H|]].
      - rewrite translate_calm by (apply gap_calm, H). rewrite <- add_add. f_equal.
      - clear - H. induction E as [|c E IH]; [constructor|]. apply Forall_cons_iff in H as [Hc H]. cbn [flat_map]. apply Forall_app. split; [|apply IH, H].
        cbn in Hc. destruct Hc as [<-|[<-|[<-|[<-|[]]]]]; repeat constructor. }
    destruct Plain as (e' & Ee' & Se' & Te').
    destruct Hc as [<-|[<-|[<-|[<-|[]]]]].
    + exists (32%N :: e'). split; [|split; [exact Se'|constructor; [reflexivity|exact Te']]].
      change (translate_from true ((32%N :: E) ++ ch "=" :: s)) with (add_text [ch "]"; 32%N] (translate_from false (E ++ ch "=" :: s))).
      rewrite Ee', add_add. reflexivity.
    + exists (32%N :: e'). split; [|split; [exact Se'|constructor; [reflexivity|exact Te']]].
      change (translate_from true ((160%N :: E) ++ ch "=" :: s)) with (add_text [ch "]"; 32%N] (translate_from false (E ++ ch "=" :: s))).
      rewrite Ee', add_add. reflexivity.
    + exists e. auto.
    + exists e. auto.
Qed.

Lemma translate_tempo A t D E F C : Forall calm A -> Forall dotted D -> Forall gap E -> Forall gap F -> Forall calm C ->
  exists e f, translate (A ++ char_of t :: D ++ E ++ ch "=" :: F ++ C)
    = Some (flat_map plain0 A ++ ch "[" :: (written_name t ++ dashes (dots_in D)) ++ ch "]" :: e ++ ch "=" :: f ++ flat_map plain0 C)
    /\ forallb space e = true /\ forallb space f = true /\ Forall (fun c => c = 32%N) e /\ Forall (fun c => c = 32%N) f.
Proof.
  intros HA HD HE HF HC. destruct (translate_gap E (F ++ C) HE) as (e & Ee & Se & Te). exists e, (flat_map plain0 F).
  split; [|split; [exact Se|split; [apply gap_spaces, HF|split; [exact Te|]]]].
  - unfold translate. assert (H : has_note (A ++ char_of t :: D ++ E ++ ch "=" :: F ++ C) = true).
    { unfold has_note. rewrite existsb_app. apply orb_true_iff. right. cbn [existsb]. apply orb_true_iff. left. destruct t; reflexivity. }
    rewrite H, translate_calm by exact HA. rewrite translate_note, translate_dots, Ee by exact HD.
    rewrite (translate_calm F C) by (apply gap_calm, HF). rewrite <- (app_nil_r C) at 1. rewrite translate_calm by exact HC.
    rewrite !add_add. cbn [translate_from add_text]. f_equal. rewrite app_nil_r.
    repeat (rewrite <- ?app_assoc; cbn [app]). reflexivity.
  - clear - HF. induction F as [|c F IH]; [constructor|]. apply Forall_cons_iff in HF as [Hc H]. cbn [flat_map]. apply Forall_app. split; [|apply IH, H].
    cbn in Hc. destruct Hc as [<-|[<-|[<-|[<-|[]]]]]; repeat constructor.
Qed.

(** ** Cleaning *)
Lemma shown_eq A : Forall calm A -> map detab (flat_map plain0 A) = flat_map shown A.
Proof.
  induction A as [|c A IH]; intro H; [reflexivity|]. apply Forall_cons_iff in H as [_ H]. cbn [flat_map]. rewrite map_app, (IH H). f_equal.
  unfold plain0, shown, detab. cbn [existsb]. destruct (N.eqb c 8201); [reflexivity|]. destruct (N.eqb c 8202); [reflexivity|]. cbn [orb].
  destruct (N.eqb c 160); [reflexivity|]. cbn [orb map existsb].
  destruct (N.eqb c 9); [reflexivity|]. destruct (N.eqb c 13); [reflexivity|]. destruct (N.eqb c 11); [reflexivity|]. destruct (N.eqb c 12); reflexivity.
Qed.
Lemma detab_other c : ~ In c [9; 13; 11; 12]%N -> detab c = c.
Proof.
  intro H. unfold detab. destruct (existsb (N.eqb c) [9; 13; 11; 12]%N) eqn:E; [|reflexivity].
  apply existsb_exists in E as (x & I & E). apply N.eqb_eq in E. subst x. contradiction.
Qed.
Lemma detab_spaces e : Forall (fun c => c = 32%N) e -> map detab e = e.
Proof. induction e as [|c e IH]; intro H; [reflexivity|]. apply Forall_cons_iff in H as [-> H]. cbn [map]. rewrite (IH H). reflexivity. Qed.
Lemma detab_names t n : n <= 3 -> map detab (written_name t ++ dashes n) = written_name t ++ dashes n.
Proof. intro H. destruct n as [|[|[|[|n]]]]; [| | | |lia]; destruct t; reflexivity. Qed.

Lemma shown_in c x A : In c (flat_map shown A) -> (x <> 32%N) -> c = x -> In x A.
Proof.
  intros H N E. subst x. apply in_flat_map in H as (y & I & H). unfold shown in H.
  destruct (existsb (N.eqb y) [8201; 8202]%N); [destruct H|]. destruct (existsb (N.eqb y) [160; 9; 13; 11; 12]%N).
  - destruct H as [<-|[]]. congruence.
  - destruct H as [<-|[]]. exact I.
Qed.
Lemma calm_lacks x A : Forall calm A -> In x [ch "["; ch "&"; ch "\"; 10%N] -> ~ In x (flat_map shown A).
Proof.
  intros H I J. assert (N : x <> 32%N) by (cbn in I; destruct I as [<-|[<-|[<-|[<-|[]]]]]; discriminate).
  pose proof (shown_in x x A J N eq_refl) as J'. destruct (proj1 (Forall_forall _ _) H x J') as [_ K]. exact (K I).
Qed.
Lemma shown_clean c : space c = false -> shown c = [c].
Proof.
  intro H. unfold shown. destruct (existsb (N.eqb c) [8201; 8202]%N) eqn:E.
  { apply existsb_exists in E as (x & I & E). apply N.eqb_eq in E. subst x. cbn in I. destruct I as [<-|[<-|[]]]; discriminate. }
  destruct (existsb (N.eqb c) [160; 9; 13; 11; 12]%N) eqn:E2; [|reflexivity].
  apply existsb_exists in E2 as (x & I & E2). apply N.eqb_eq in E2. subst x. cbn in I. destruct I as [<-|[<-|[<-|[<-|[<-|[]]]]]]; discriminate.
Qed.
Lemma shown_begins A b : begins_clean A -> begins_clean b -> begins_clean (flat_map shown A ++ b).
Proof. intros H Hb. destruct A as [|c A]; [exact Hb|]. cbn [flat_map]. cbn [begins_clean] in H. rewrite (shown_clean c H). exact H. Qed.
Lemma shown_ends C : ends_clean C -> ends_clean (flat_map shown C).
Proof.
  unfold ends_clean. intro H. rewrite <- (rev_involutive C). destruct (rev C) as [|c r]; [exact Logic.I|]. cbn [begins_clean] in H.
  cbn [rev]. rewrite flat_map_app. cbn [flat_map]. rewrite (shown_clean c H), rev_app_distr. exact H.
Qed.
Lemma strip_clean p s : (forall c, p c = true -> space c = true) -> begins_clean s -> ends_clean s -> strip_by p s = s.
Proof.
  intros P B E. unfold strip_by.
  assert (D : forall l, begins_clean l -> drop_by p l = l).
  { intros [|c l] H; [reflexivity|]. cbn in *. destruct (p c) eqn:Q; [apply P in Q; congruence|reflexivity]. }
  rewrite (D s B), (D (rev s) E). apply rev_involutive.
Qed.

(** ** Reading *)
Lemma names_read t n : n <= 3 -> durationFromName (written_name t ++ dashes n) = Some (t, n)
  /\ symbols_of_name (written_name t ++ dashes n) = char_of t :: repeat dot n
  /\ forallb (fun c => negb (N.eqb c (ch "=")) && negb (N.eqb c (ch "]"))) (written_name t ++ dashes n) = true
  /\ ~ In (ch "[") (written_name t ++ dashes n) /\ ~ In 10%N (written_name t ++ dashes n)
  /\ Forall quiet (written_name t ++ dashes n).
Proof.
  intro H. assert (Q : forall s : text, forallb (fun c => negb (N.eqb c (ch "[")) && negb (N.eqb c 10) && negb (N.eqb c (ch "&")) && negb (N.eqb c (ch "\"))) s = true ->
    ~ In (ch "[") s /\ ~ In 10%N s /\ Forall quiet s).
  { intros s F. rewrite forallb_forall in F.
    assert (G : forall c, In c s -> c <> ch "[" /\ c <> 10%N /\ quiet c).
    { intros c I. specialize (F c I). rewrite !andb_true_iff, !negb_true_iff, !N.eqb_neq in F. unfold quiet. tauto. }
    split; [intro I; apply G in I; tauto|]. split; [intro I; apply G in I; tauto|]. apply Forall_forall. intros c I. apply G, I. }
  destruct n as [|[|[|[|n]]]]; [| | | |lia]; destruct t;
    (split; [vm_compute; reflexivity|split; [vm_compute; reflexivity|split; [vm_compute; reflexivity|apply Q; vm_compute; reflexivity]]]).
Qed.
Lemma spaced_dots n : spaced (repeat dot n) = flat_map (fun _ => [8201; 60599]%N) (seq 0 n).
Proof. generalize 0 as k. induction n as [|n IH]; intro k; [reflexivity|]. cbn [repeat spaced seq flat_map app]. rewrite <- (IH (S k)). reflexivity. Qed.
Lemma line_of_all s : ~ In 10%N s -> line_of s = s.
Proof.
  intro H. unfold line_of. rewrite <- (app_nil_r s) at 1. rewrite span_text_all; [reflexivity| |exact Logic.I].
  apply forallb_forall. intros c I. apply negb_true_iff, N.eqb_neq. intros ->. exact (H I).
Qed.
Lemma opened_eq (a : text) : match rev a with c :: _ => if N.eqb c (ch "(") then a ++ [hair] else a | [] => a end = opened a.
Proof.
  unfold opened. destruct a as [|x a] using rev_ind; [reflexivity|]. rewrite rev_app_distr, last_last. reflexivity.
Qed.

(** ** Numbers *)
Lemma digit_iff c : digit c = true <-> (48 <= c <= 57)%N.
Proof. unfold digit. rewrite andb_true_iff, !N.leb_le. reflexivity. Qed.
Lemma digits_all ds : digits ds -> forallb digit ds = true.
Proof. intro H. apply forallb_forall. intros c I. apply digit_iff. exact (proj1 (Forall_forall _ _) H c I). Qed.
Lemma show_digits n : digits (map N_of_ascii (show_N n)).
Proof.
  apply Forall_forall. intros c I. apply in_map_iff in I as (a & <- & I). pose proof (proj1 (forallb_forall _ _) (show_N_digits n) a I) as H.
  unfold is_digit in H. apply andb_prop in H as [A B]. apply N.leb_le in A, B. lia.
Qed.
Lemma parse_show n : parse_digits (map N_of_ascii (show_N n)) = n.
Proof.
  rewrite <- (parse_show_N n) at 2. unfold parse_digits, parse_N. generalize 0%N as z. generalize (show_N_digits n). generalize (show_N n) as s.
  intro s. induction s as [|c s IH]; intros D z; [reflexivity|]. cbn [forallb] in D. apply andb_prop in D as [_ D]. cbn [map fold_left]. rewrite (IH D). reflexivity.
Qed.
Lemma number_read n frac r : (forall ds, frac = Some ds -> digits ds) ->
  match r with [] => True | c :: _ => ~ (48 <= c <= 57)%N /\ (frac = None -> c <> ch ".") end ->
  rounded (number_text (decimal n frac ++ r)) = half_up n frac.
Proof.
  intros F R. unfold decimal, number_text. rewrite <- app_assoc.
  pose proof (digits_all _ (show_digits n)) as S.
  assert (Nd : forall c, ~ (48 <= c <= 57)%N -> digit c = false). { intros c H. destruct (digit c) eqn:E; [apply digit_iff in E; contradiction|reflexivity]. }
  destruct frac as [ds|].
  - specialize (F ds eq_refl). cbn [app]. rewrite span_text_all; [|exact S|reflexivity].
    change (N.eqb (ch ".") (ch ".")) with true. cbv iota. rewrite span_text_all; [|exact (digits_all _ F)|destruct r as [|c r]; [exact Logic.I|apply Nd, R]].
    cbn [fst]. unfold rounded. rewrite span_text_all; [|exact S|reflexivity]. cbn [app half_up]. rewrite parse_show. destruct ds; reflexivity.
  - cbn [app]. destruct r as [|c r].
    + rewrite app_nil_r. rewrite <- (app_nil_r (map N_of_ascii (show_N n))) at 1. rewrite span_text_all; [|exact S|exact Logic.I].
      unfold rounded. rewrite <- (app_nil_r (map N_of_ascii (show_N n))). rewrite span_text_all; [|exact S|exact Logic.I]. apply parse_show.
    + destruct R as [Rd Rp]. rewrite span_text_all; [|exact S|apply Nd, Rd]. rewrite (proj2 (N.eqb_neq _ _) (Rp eq_refl)).
      unfold rounded. rewrite <- (app_nil_r (map N_of_ascii (show_N n))). rewrite span_text_all; [|exact S|exact Logic.I]. apply parse_show.
Qed.

Lemma mark_tempo a t n e f d c bpm : n <= 3 -> ~ In (ch "[") a -> ~ In (ch "[") (d :: c) -> ~ In 10%N a -> ~ In 10%N (d :: c) ->
  forallb space e = true -> forallb space f = true -> Forall (fun c => c = 32%N) e -> Forall (fun c => c = 32%N) f -> digit d = true ->
  mark_of (a ++ ch "[" :: (written_name t ++ dashes n) ++ ch "]" :: e ++ ch "=" :: f ++ d :: c) bpm
  = Some (mkMark (Some (tempo_text a t n (d :: c))) (positive (rounded (number_text (d :: c)))) (Some (t, n))).
Proof.
  intros Hn Ba Bc Na Nc Se Sf Te Tf Hd. destruct (names_read t n Hn) as (Dn & Sn & Pn & Bn & _ & _).
  set (Y := (written_name t ++ dashes n) ++ ch "]" :: e ++ ch "=" :: f ++ d :: c).
  assert (A : after_bracket Y = Some (written_name t ++ dashes n, d :: c)) by (apply after_bracket_eq; assumption).
  assert (BY : ~ In bracket Y).
  { unfold Y. intro I. apply in_app_or in I as [I|I]; [exact (Bn I)|]. destruct I as [I|I]; [discriminate|].
    apply in_app_or in I as [I|I]; [apply (proj1 (Forall_forall _ _) Te) in I; discriminate|]. destruct I as [I|I]; [discriminate|].
    apply in_app_or in I as [I|I]; [apply (proj1 (Forall_forall _ _) Tf) in I; discriminate|]. exact (Bc I). }
  unfold mark_of. change (ch "[") with bracket. destruct (one_bracket_info a Y _ _ Ba BY A) as (l & mm & ->).
  rewrite Dn. unfold getTempoText. rewrite (search_tempo_one a Y _ _ BY Na A), (line_of_all _ Nc), opened_eq, Sn, spaced_dots.
  unfold tempo_text. cbn [app]. reflexivity.
Qed.

(** ** C142 *)

(** A tempo text with one note and a number after it is read as a metronome mark
    for that note, with its dots and its number, and with the same text. *)
Theorem C142_tempo_text_partial : forall first A t D E F n frac R q,
  Forall calm A -> begins_clean A -> Forall dotted D -> dots_in D <= 3 -> Forall gap E -> Forall gap F ->
  (forall ds, frac = Some ds -> digits ds) -> Forall calm R -> ends_number frac R -> ends_clean (decimal n frac ++ R) ->
  round_tempo first (A ++ char_of t :: D ++ E ++ ch "=" :: F ++ decimal n frac ++ R) q
  = Some (Some (mkMark (Some (tempo_text (flat_map shown A) t (dots_in D) (decimal n frac ++ flat_map shown R)))
                       (if N.eqb (half_up n frac) 0 then None else Some (half_up n frac)) (Some (t, dots_in D)))).
Proof.
  intros first A t D E F n frac R q HA BA HD Hn HE HF Hf HR Nr Ec.
  set (C := decimal n frac ++ R).
  assert (Calm_digit : forall c, (48 <= c <= 57)%N -> calm c).
  { intros c B. split; intro I; cbn in I; repeat (destruct I as [I|I]; [subst c; cbn in B; lia|]); destruct I. }
  assert (Cd : Forall calm (decimal n frac)).
  { unfold decimal. apply Forall_app. split; [generalize (show_digits n); apply Forall_impl, Calm_digit|].
    destruct frac as [ds|]; [|constructor]. constructor; [split; intro I; cbn in I; repeat (destruct I as [I|I]; [discriminate|]); destruct I|].
    generalize (Hf ds eq_refl). apply Forall_impl, Calm_digit. }
  assert (HC : Forall calm C) by (apply Forall_app; auto).
  assert (Sd : flat_map shown (decimal n frac) = decimal n frac).
  { assert (Id : forall ds, digits ds -> flat_map shown ds = ds).
    { intros ds H. induction H as [|c ds Hc H IH]; [reflexivity|]. cbn [flat_map]. rewrite IH, shown_clean by (apply digit_space, digit_iff, Hc). reflexivity. }
    unfold decimal. rewrite flat_map_app, (Id _ (show_digits n)). f_equal. destruct frac as [ds|]; [|reflexivity]. cbn [flat_map]. rewrite (Id _ (Hf ds eq_refl)). reflexivity. }
  assert (SC : flat_map shown C = decimal n frac ++ flat_map shown R) by (unfold C; rewrite flat_map_app, Sd; reflexivity).
  destruct (translate_tempo A t D E F C HA HD HE HF HC) as (e & f & T & Se & Sf & Te & Tf).
  unfold round_tempo, written_text. fold C. rewrite T.
  set (X := flat_map plain0 A ++ _). set (bpm := match q with Some q => tempoBPM (mm_token q) | None => 0%N end).
  destruct (names_read t (dots_in D) Hn) as (_ & _ & _ & Bn & Nn & Qn).
  assert (Qa : forall s, Forall calm s -> Forall quiet (flat_map plain0 s)).
  { intros s H. apply Forall_forall. intros c I. apply in_flat_map in I as (x & J & I).
    destruct (proj1 (Forall_forall _ _) H x J) as [_ K]. unfold plain0 in I.
    destruct (existsb (N.eqb x) [8201; 8202]%N); [destruct I|]. destruct (N.eqb x 160); destruct I as [<-|[]]; [split; discriminate|].
    split; intros ->; apply K; cbn; auto. }
  assert (Q32 : forall s, Forall (fun c => c = 32%N) s -> Forall quiet s) by (intro s; apply Forall_impl; intros c ->; split; discriminate).
  assert (QX : Forall quiet X).
  { unfold X. apply Forall_app. split; [apply Qa, HA|]. constructor; [split; discriminate|]. apply Forall_app. split; [exact Qn|].
    constructor; [split; discriminate|]. apply Forall_app. split; [apply Q32, Te|]. constructor; [split; discriminate|].
    apply Forall_app. split; [apply Q32, Tf|apply Qa, HC]. }
  assert (DX : map detab X = flat_map shown A ++ ch "[" :: (written_name t ++ dashes (dots_in D)) ++ ch "]" :: e ++ ch "=" :: f ++ flat_map shown C).
  { unfold X. rewrite map_app, (shown_eq A HA). cbn [map]. rewrite map_app, (detab_names t _ Hn). cbn [map]. rewrite map_app, (detab_spaces e Te). cbn [map].
    rewrite map_app, (detab_spaces f Tf), (shown_eq C HC). reflexivity. }
  assert (B : begins_clean (map detab X)) by (rewrite DX; apply shown_begins; [exact BA|reflexivity]).
  assert (En : ends_clean (map detab X)).
  { rewrite DX. apply shown_ends in Ec. fold C in Ec.
    assert (G : forall x : text, ends_clean (x ++ flat_map shown C)).
    { intro x. unfold ends_clean in *. rewrite rev_app_distr. destruct (rev (flat_map shown C)) as [|y l] eqn:El; [|exact Ec].
      exfalso. apply (f_equal (@rev N)) in El. rewrite rev_involutive, SC in El. unfold decimal in El. destruct (show_N_cons n) as (y & s & Es & _). rewrite Es in El. discriminate. }
    set (c := flat_map shown C) in *.
    replace (_ ++ _ :: _) with ((flat_map shown A ++ ch "[" :: (written_name t ++ dashes (dots_in D)) ++ ch "]" :: e ++ ch "=" :: f) ++ c); [apply G|].
    repeat (rewrite <- ?app_assoc; cbn [app]). reflexivity. }
  assert (M : mark_of (map detab X) bpm = Some (mkMark (Some (tempo_text (flat_map shown A) t (dots_in D) (flat_map shown C)))
                (positive (rounded (number_text (flat_map shown C)))) (Some (t, dots_in D)))).
  { rewrite DX. destruct (flat_map shown C) as [|d c] eqn:Ed.
    { exfalso. unfold decimal in SC. destruct (show_N_cons n) as (x & s & Es & _). rewrite Es in SC. discriminate. }
    assert (Dd : digit d = true).
    { pose proof (show_digits n) as Sg. unfold decimal in SC. destruct (show_N_cons n) as (x & s & Es & _). rewrite Es in SC, Sg. cbn [map app] in SC, Sg.
      injection SC as -> _. apply digit_iff. apply Forall_cons_iff in Sg as [Sg _]. exact Sg. }
    apply mark_tempo; try assumption; try (rewrite <- Ed); apply calm_lacks; (assumption || (cbn; auto)). }
  assert (Num : rounded (number_text (flat_map shown C)) = half_up n frac) by (rewrite SC; apply number_read; assumption).
  rewrite Num in M. rewrite <- SC. f_equal. destruct first.
  - rewrite layout_written by exact QX. rewrite strip_text_by, strip_clean by auto. exact M.
  - rewrite record_written by exact QX. rewrite strip_clean; [|intros c P; unfold outer_space in P; apply andb_prop in P as [P _]; apply andb_prop in P as [P _]; exact P|exact B|exact En].
    destruct (map detab X) eqn:Ex; [destruct (flat_map shown A); discriminate|]. exact M.
Qed.
Print Assumptions C142_tempo_text_partial.

(** A text as the reader makes it comes back unchanged. *)
Theorem C142_stable_partial : forall first a t k n R q,
  let A := opened a in
  let T := tempo_text a t k (decimal n None ++ R) in
  Forall calm a -> Forall calm R -> begins_clean a -> k <= 3 -> ends_number None R -> ends_clean (decimal n None ++ R) ->
  (forall c, In c a \/ In c R -> shown c = [c]) -> (0 < n)%N ->
  round_tempo first T q = Some (Some (mkMark (Some T) (Some n) (Some (t, k)))).
Proof.
  intros first a t k n R q A T Ha HR Ba Hk Nr Ec Sh Pn.
  assert (Same : forall s, (forall c, In c s -> shown c = [c]) -> flat_map shown s = s).
  { intro s. induction s as [|c s IH]; intro H; [reflexivity|]. cbn [flat_map]. rewrite H by now left. rewrite IH; [reflexivity|]. intros x I. apply H. now right. }
  set (D := flat_map (fun _ => [8201; 60599]%N) (seq 0 k)).
  assert (HD : Forall dotted D /\ dots_in D = k).
  { unfold D, dots_in. clear. generalize 0 as j. induction k as [|k IH]; intro j; [split; [constructor|reflexivity]|]. destruct (IH (S j)) as [IH1 IH2].
    cbn [seq flat_map app]. split; [constructor; [cbn; auto|constructor; [cbn; auto|exact IH1]]|].
    change (count_occ N.eq_dec (8201%N :: 60599%N :: flat_map (fun _ => [8201; 60599]%N) (seq (S j) k)) 60599%N)
      with (S (count_occ N.eq_dec (flat_map (fun _ => [8201; 60599]%N) (seq (S j) k)) 60599%N)). rewrite IH2. reflexivity. }
  destruct HD as [HD1 HD2].
  assert (HA : Forall calm A).
  { unfold A, opened. destruct (N.eqb _ _); [|exact Ha]. apply Forall_app. split; [exact Ha|]. constructor; [|constructor].
    split; intro I; cbn in I; repeat (destruct I as [I|I]; [discriminate|]); destruct I. }
  assert (SA : flat_map shown A = a).
  { unfold A, opened. destruct (N.eqb _ _); [|apply Same; auto]. rewrite flat_map_app, Same by auto. apply app_nil_r. }
  assert (BA : begins_clean A).
  { unfold A, opened. destruct a as [|c a']; [exact Logic.I|]. destruct (N.eqb _ _); exact Ba. }
  assert (E : T = A ++ char_of t :: D ++ [160%N] ++ ch "=" :: [160%N] ++ decimal n None ++ R) by reflexivity.
  rewrite E at 1. rewrite (C142_tempo_text_partial first A t D [160%N] [160%N] n None R q HA BA HD1).
  - rewrite SA, HD2, (Same R) by auto. cbn [half_up]. rewrite (proj2 (N.eqb_neq n 0)) by lia. reflexivity.
  - rewrite HD2. exact Hk.
  - constructor; [cbn; auto|constructor].
  - constructor; [cbn; auto|constructor].
  - discriminate.
  - exact HR.
  - exact Nr.
  - exact Ec.
Qed.
Print Assumptions C142_stable_partial.

(** ** C143: texts without notes *)
Lemma has_note_none s : (forall c, In c s -> ~ In c note_chars) -> has_note s = false.
Proof.
  intro H. unfold has_note. destruct (existsb _ s) eqn:E; [|reflexivity]. apply existsb_exists in E as (c & I & E). rewrite (name_none c (H c I)) in E. discriminate.
Qed.
Lemma mm_read q : (0 <= q)%Q -> exists n : N, tempoBPM (mm_token q) = n
  /\ (q - (1 # 2) < inject_Z (Z.of_N n))%Q /\ (inject_Z (Z.of_N n) <= q + (1 # 2))%Q.
Proof.
  intro H. set (z := Qfloor (q + (1 # 2))).
  assert (Z0 : (0 <= z)%Z). { change 0%Z with (Qfloor 0). apply Qfloor_resp_le. apply (Qle_trans _ (0 + (1 # 2))); [discriminate|]. apply Qplus_le_compat; [exact H|discriminate]. }
  exists (Z.to_N z). split; [|].
  - unfold mm_token. fold z. assert (Sz : show_Z z = show_N (Z.to_N z)) by (destruct z; [reflexivity|reflexivity|lia]).
    rewrite Sz. set (n := Z.to_N z).
    unfold tempoBPM. destruct (show_N_cons n) as (x & s & Es & Dx).
    pose proof (number_read n None [] ltac:(discriminate) Logic.I) as R. rewrite app_nil_r in R. unfold decimal in R. rewrite app_nil_r in R. cbn [half_up] in R.
    pose proof (show_digits n) as Sg. rewrite Es in *. apply Forall_cons_iff in Sg as [Sg _].
    cbn [map] in R |- *.
    change ((if digit (N_of_ascii x) then rounded (number_text (N_of_ascii x :: map N_of_ascii s)) else 0%N) = n).
    rewrite (proj2 (digit_iff _) Sg). exact R.
  - rewrite Z2N.id by exact Z0. split; [|apply Qfloor_le].
    pose proof (Qlt_floor (q + (1 # 2))) as L. fold z in L. rewrite inject_Z_plus in L. change (inject_Z 1) with 1%Q in L.
    apply (Qplus_lt_l _ _ 1). apply (Qle_lt_trans _ (q + (1 # 2))); [|exact L].
    assert (X : (q - (1 # 2) + 1 == q + (1 # 2))%Q) by ring. rewrite X. apply Qle_refl.
Qed.

(** Characters of plain texts, and how they come back: tabs as spaces. *)
Definition plain (c : N) : Prop := ~ In c note_chars /\ ~ In c [ch "["; ch "&"; ch "\"].
Definition untab (c : N) : N := if existsb (N.eqb c) [9; 13; 11; 12]%N then 32%N else c.

(** A text without notes comes back with its spaces and newlines, the number of
    quarters a minute rounded to the nearest whole number. *)
Theorem C143_plain_text_partial : forall first s q,
  Forall plain s -> s <> [] -> begins_clean s -> ends_clean s -> (0 <= q)%Q ->
  exists n, round_tempo first s (Some q) = Some (Some (mkMark (Some (map untab s)) (if N.eqb n 0 then None else Some n) None))
    /\ (q - (1 # 2) < inject_Z (Z.of_N n))%Q /\ (inject_Z (Z.of_N n) <= q + (1 # 2))%Q.
Proof.
  intros first s q P Ne B E H. destruct (mm_read q H) as (n & En & N1 & N2). exists n. split; [|split; assumption].
  assert (P1 : forall c, In c s -> ~ In c note_chars) by (intros c I; apply (proj1 (Forall_forall _ _) P c I)).
  unfold round_tempo, written_text, translate. rewrite (has_note_none s P1), En.
  assert (Q : Forall quiet s). { revert P. apply Forall_impl. intros c [_ K]. split; intros ->; apply K; cbn; auto. }
  assert (Sp : forall c, space c = false -> detab c = c).
  { intros c K. apply detab_other. intro I. cbn in I. destruct I as [<-|[<-|[<-|[<-|[]]]]]; discriminate. }
  assert (B' : begins_clean (map detab s)). { destruct s as [|c s']; [exact Logic.I|]. cbn in *. rewrite (Sp c B). exact B. }
  assert (E' : ends_clean (map detab s)). { unfold ends_clean in *. rewrite <- map_rev. destruct (rev s) as [|c r]; [exact Logic.I|]. cbn in *. rewrite (Sp c E). exact E. }
  assert (Nb : ~ In bracket (map detab s)).
  { intro I. apply in_map_iff in I as (c & Ec & I). destruct (proj1 (Forall_forall _ _) P c I) as [_ K]. unfold detab in Ec.
    destruct (existsb _ _) in Ec; [discriminate|]. apply K. left. symmetry. exact Ec. }
  assert (St : strip_by space (map detab s) = map detab s) by (apply strip_clean; auto).
  assert (M : mark_of (map detab s) n = Some (mkMark (Some (map untab s)) (if N.eqb n 0 then None else Some n) None)).
  { unfold mark_of. rewrite (no_bracket_info _ Nb), strip_text_by, St. change (map detab s) with (map untab s).
    destruct s as [|c s']; [congruence|]. cbn [map nonempty]. unfold positive. destruct (N.eqb n 0); reflexivity. }
  f_equal. destruct first.
  - rewrite layout_written by exact Q. rewrite strip_text_by, St. exact M.
  - rewrite record_written by exact Q. rewrite strip_clean; [|intros c K; unfold outer_space in K; apply andb_prop in K as [K _]; apply andb_prop in K as [K _]; exact K|exact B'|exact E'].
    destruct s as [|c s']; [congruence|]. exact M.
Qed.
Print Assumptions C143_plain_text_partial.

(** ** What does not come back *)
Definition quarter_is (s : text) : text := char_of Quarter :: U " = " ++ s.
(** A note at the end of the text: there is no text to be written. *)
Theorem C142_final_note_refuted : exists s, last s 0%N = char_of T8 /\ forall first q, round_tempo first s q = None.
Proof. exists (U "L'istesso tempo " ++ quarter_is [char_of T8]). split; [reflexivity|]. intros first q. vm_compute. reflexivity. Qed.
Print Assumptions C142_final_note_refuted.
(** Four dots are read as three. *)
Theorem C142_four_dots_refuted : exists s, dots_in s = 4 /\ hd 0%N s = char_of Quarter /\
  exists t, round_tempo true s None = Some (Some (mkMark (Some t) (Some 60%N) (Some (Quarter, 3)))) /\ dots_in t = 3.
Proof.
  exists (char_of Quarter :: repeat 60599%N 4 ++ U " = 60"). split; [reflexivity|]. split; [reflexivity|]. eexists. split; vm_compute; reflexivity.
Qed.
Print Assumptions C142_four_dots_refuted.
(** The breve with square sides becomes the ordinary one. *)
Theorem C142_square_breve_refuted : exists s t, hd 0%N s = 60577%N /\
  round_tempo true s None = Some (Some (mkMark (Some t) (Some 60%N) (Some (Breve, 0)))) /\ hd 0%N t = 60576%N.
Proof. exists (60577%N :: U " = 60"). eexists. split; [reflexivity|]. split; vm_compute; reflexivity. Qed.
Print Assumptions C142_square_breve_refuted.
(** Of two notes the first is shown by its name in brackets, not as a note, and
    the mark is for the second. *)
Theorem C142_two_notes_refuted : exists s t, s = quarter_is (U "60 (") ++ char_of T8 :: U " = 120)" /\
  round_tempo true s None = Some (Some (mkMark (Some t) (Some 120%N) (Some (T8, 0)))) /\ firstn 9 t = U "[quarter]".
Proof. eexists. eexists. split; [reflexivity|]. split; vm_compute; reflexivity. Qed.
Print Assumptions C142_two_notes_refuted.
(** Only one line of a text with a note is kept. *)
Theorem C142_lines_refuted : exists s t, s = U "Allegro" ++ 10%N :: quarter_is (U "120") /\
  round_tempo true s None = Some (Some (mkMark (Some t) (Some 120%N) (Some (Quarter, 0)))) /\ hd 0%N t = char_of Quarter.
Proof. eexists. eexists. split; [reflexivity|]. split; vm_compute; reflexivity. Qed.
Print Assumptions C142_lines_refuted.
(** Words before the number: no referent, and the name in brackets is the text. *)
Theorem C142_circa_refuted : exists s, s = quarter_is (U "ca. 120") /\
  round_tempo true s (Some (120 # 1)%Q) = Some (Some (mkMark (Some (U "[quarter] = ca. 120")) (Some 120%N) None)).
Proof. eexists. split; [reflexivity|]. vm_compute. reflexivity. Qed.
Print Assumptions C142_circa_refuted.
(** Fractions of a beat a minute are lost, though the text keeps them. *)
Theorem C142_fraction_refuted : exists s t, s = quarter_is (U "120.5") /\
  round_tempo true s (Some (241 # 2)%Q) = Some (Some (mkMark (Some t) (Some 121%N) (Some (Quarter, 0)))) /\ skipn 4 t = U "120.5".
Proof. eexists. eexists. split; [reflexivity|]. split; vm_compute; reflexivity. Qed.
Print Assumptions C142_fraction_refuted.
(** Entities in plain texts are decoded though they were not encoded. *)
Theorem C143_entity_refuted : exists s, s = U "Molto &colon; poco" /\
  exists t, round_tempo true s None = Some (Some (mkMark (Some t) None None)) /\ t <> s.
Proof. eexists. split; [reflexivity|]. eexists. split; [vm_compute; reflexivity|]. intro E. apply (f_equal (@length N)) in E. vm_compute in E. discriminate. Qed.
Print Assumptions C143_entity_refuted.

(** ** Cases *)
Ltac in_no := let I := fresh in intro I; cbn in I; repeat (destruct I as [I|I]; [discriminate|]); destruct I.
Ltac calms := repeat (apply Forall_cons; [split; in_no|]); apply Forall_nil.
Example C142_tempo_text_nonvacuous :
  round_tempo false (U "Allegro (" ++ char_of Half :: [8201; 60599; 60599]%N ++ [160%N] ++ ch "=" :: U " " ++ decimal 96 (Some (U "75")) ++ U ")") None
  = Some (Some (mkMark (Some (U "Allegro (" ++ 8202%N :: char_of Half :: [8201; 60599; 8201; 60599; 160; 61; 160]%N ++ U "96.75)")) (Some 97%N) (Some (Half, 2)))).
Proof.
  rewrite C142_tempo_text_partial; [vm_compute; reflexivity|calms|reflexivity| | | | | |calms| |].
  - repeat (apply Forall_cons; [cbn; auto|]). apply Forall_nil.
  - vm_compute. lia.
  - repeat (apply Forall_cons; [cbn; auto|]). apply Forall_nil.
  - repeat (apply Forall_cons; [cbn; auto|]). apply Forall_nil.
  - intros ds H. injection H as <-. repeat (apply Forall_cons; [cbn; lia|]). apply Forall_nil.
  - cbn. split; [lia|discriminate].
  - vm_compute. reflexivity.
Qed.
Example C142_stable_nonvacuous :
  let T := tempo_text (U "Andante (") Quarter 1 (decimal 72 None ++ U ")") in
  round_tempo true T (Some (50 # 1)%Q) = Some (Some (mkMark (Some T) (Some 72%N) (Some (Quarter, 1)))).
Proof.
  apply C142_stable_partial; [calms|calms|reflexivity|lia| |vm_compute; reflexivity| |lia].
  - cbn. split; [lia|discriminate].
  - intros c I. cbn in I. repeat (destruct I as [I|I]; [try (subst c; reflexivity); repeat (destruct I as [I|I]; [subst c; reflexivity|]); destruct I|]).
    repeat (destruct I as [I|I]; [subst c; reflexivity|]). destruct I.
Qed.
Example C143_plain_text_nonvacuous :
  round_tempo false (U "Adagio" ++ 10%N :: U "ma non" ++ 160%N :: U "troppo") (Some (131 # 2)%Q)
  = Some (Some (mkMark (Some (U "Adagio" ++ 10%N :: U "ma non" ++ 160%N :: U "troppo")) (Some 66%N) None)).
Proof.
  destruct (C143_plain_text_partial false (U "Adagio" ++ 10%N :: U "ma non" ++ 160%N :: U "troppo") (131 # 2)%Q) as (n & -> & N1 & N2).
  - calms.
  - discriminate.
  - reflexivity.
  - vm_compute. reflexivity.
  - discriminate.
  - unfold Qlt, Qle, inject_Z in N1, N2. cbn in N1, N2. assert (n = 66%N) as -> by lia. reflexivity.
Qed.
