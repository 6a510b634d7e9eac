(** C83: articulations survive export and re-import. *)
From Coq Require Import Lia Permutation Sorted.
From Verif Require Import PyStr PyStrProofs ArticModel.

(** ** Vocabulary *)

(** The characters that can be read as articulations. *)
Definition artic_chars : list ascii := ["'"%char; "`"%char; "~"%char; "^"%char; ","%char; "o"%char; "v"%char; "u"%char; quote_char].
(** Text around the articulations of a token. *)
Definition plain (s : str) : Prop := forall c, In c s -> ~ In c artic_chars.
(** What may follow: no placement mark, and no single [y], which would hide the articulation
    (a hidden note is marked by two). *)
Definition harmless (s : str) : Prop :=
  match s with
  | [] => True
  | c :: r => c <> ">"%char /\ c <> "<"%char /\ (c = "y"%char -> exists r', r = "y"%char :: r')
  end.
(** An accent without a placement directly before a strong accent with one. *)
Definition accents_clash (l : list (artic * placement)) : Prop := exists a b p, l = a ++ (Accent, PNone) :: (StrongAccent, p) :: b /\ p <> PNone.
(** The signifiers the exporter declares (humdrumwriter.py:547-548). *)
Definition read_exported : str -> list (artic * placement) := read_artics (Some ">"%char) (Some "<"%char).
Definition stack_rank (a : artic) : nat :=
  match a with Staccato => 1 | Staccatissimo => 2 | Tenuto => 3 | StrongAccent => 4 | Accent => 5 | BreathMark => 6 | Harmonic => 7 | UpBow => 8 | DownBow => 9 | Pizzicato => 10 end.

(** ** Proofs *)

Notation scan := (scan_artics (Some ">"%char) (Some "<"%char)).
Definition agree (d e : found) : Prop := forall a, d (artic_str a) = e (artic_str a).
Lemma agree_note k v d e : agree d e -> agree (note_artic k v d) (note_artic k v e).
Proof. intros A a. unfold note_artic. destruct (str_eqb (artic_str a) k); [reflexivity|apply A]. Qed.
Lemma scan_agree_n n : forall s d e, length s <= n -> agree d e -> agree (scan s d) (scan s e).
Proof.
  induction n as [|n IH]; intros s d e L A; (destruct s as [|c r]; [exact A|]); cbn [length] in L; [lia|]. cbn [scan_artics].
  destruct (is_digit c); [apply IH; [lia|exact A]|]. destruct r as [|c1 r']; [apply (IH []); [cbn; lia|apply agree_note; exact A]|]. cbn [length] in L.
  destruct (_ && _); [apply IH; [lia|apply agree_note; exact A]|]. destruct (_ && _); [apply IH; [lia|apply agree_note; exact A]|]. apply IH; [cbn [length]; lia|apply agree_note; exact A].
Qed.
Lemma scan_agree s d e : agree d e -> agree (scan s d) (scan s e).
Proof. apply (scan_agree_n (length s)). apply le_n. Qed.
Lemma agree_trans a b c : agree a b -> agree b c -> agree a c.
Proof. intros A B x. rewrite A. apply B. Qed.
(** A character that is no articulation changes nothing. *)
Lemma other_char c v d : ~ In c artic_chars -> agree (note_artic [c] v d) d.
Proof.
  intros N a. unfold note_artic. destruct (str_eqb (artic_str a) [c]) eqn:E; [|reflexivity]. apply str_eqb_eq in E. exfalso. apply N. unfold artic_chars.
  destruct a; cbn in E; try discriminate; injection E as <-; cbn [In]; tauto.
Qed.
Lemma scan_other c r d : ~ In c artic_chars -> agree (scan (c :: r) d) (scan r d).
Proof.
  intros N. cbn [scan_artics]. destruct (is_digit c); [intros a; reflexivity|].
  assert (N1 : Ascii.eqb c "^" = false) by (apply Ascii.eqb_neq; intros ->; apply N; unfold artic_chars; cbn [In]; tauto).
  assert (N2 : Ascii.eqb c "'" = false) by (apply Ascii.eqb_neq; intros ->; apply N; unfold artic_chars; cbn [In]; tauto).
  rewrite N1, N2. cbn [andb]. destruct r as [|c1 r']; apply scan_agree, other_char; exact N.
Qed.
Lemma scan_plain p r : forall d, plain p -> agree (scan (p ++ r) d) (scan r d).
Proof.
  induction p as [|c p IH]; intros d N; [intros a; reflexivity|]. cbn [app]. eapply agree_trans; [apply scan_other; apply N; left; reflexivity|]. apply IH. intros x X. apply N. right. exact X.
Qed.
Lemma scan_suffix s d : plain s -> agree (scan s d) d.
Proof. intros N. assert (X := scan_plain s [] d N). rewrite app_nil_r in X. exact X. Qed.

(** One articulation. *)
Definition next_ok (r : str) : Prop := harmless r.
Lemma harmless_read r : harmless r -> gestural (Some ">"%char) (Some "<"%char) r = false /\ place (Some ">"%char) (Some "<"%char) r = PNone.
Proof.
  destruct r as [|c r]; [split; reflexivity|]. intros (A & B & C). unfold gestural, place. cbn [nth_error is_char].
  apply not_eq_sym, Ascii.eqb_neq in A. apply not_eq_sym, Ascii.eqb_neq in B. rewrite A, B. cbn [andb]. split; [|reflexivity].
  destruct (Ascii.eqb "y" c) eqn:E; [|reflexivity]. apply Ascii.eqb_eq in E. destruct (C (eq_sym E)) as (r' & ->). reflexivity.
Qed.
Lemma placed_read p r : p <> PNone -> harmless r -> gestural (Some ">"%char) (Some "<"%char) (placement_str p ++ r) = false /\ place (Some ">"%char) (Some "<"%char) (placement_str p ++ r) = p.
Proof.
  intros N H. assert (Y : is_char (Some "y"%char) (nth_error r 0) && negb (is_char (Some "y"%char) (nth_error r 1)) = false).
  { destruct r as [|c r]; [reflexivity|]. destruct H as (_ & _ & H). cbn [nth_error is_char]. destruct (Ascii.eqb "y" c) eqn:E; [|reflexivity]. apply Ascii.eqb_eq in E. destruct (H (eq_sym E)) as (r' & ->). reflexivity. }
  destruct p; [contradiction|..]; (destruct r as [|c [|c1 r]]; cbn in Y |- *; rewrite ?Y; split; reflexivity).
Qed.
Definition first_not (c : ascii) (r : str) : Prop := match r with [] => True | x :: _ => x <> c end.
Lemma scan_artic a p r d : harmless r -> (p = PNone -> a = Accent -> first_not "^"%char r) -> (p = PNone -> a = Staccato -> first_not "'"%char r) ->
  agree (scan (write_artic (a, p) ++ r) d) (scan r (note_artic (artic_str a) (false, p) d)).
Proof.
  intros H HA HS. unfold write_artic. cbn [fst snd]. rewrite <- app_assoc.
  assert (RD : gestural (Some ">"%char) (Some "<"%char) (placement_str p ++ r) = false /\ place (Some ">"%char) (Some "<"%char) (placement_str p ++ r) = p).
  { destruct p; [apply harmless_read; exact H|apply placed_read; [discriminate|exact H]..]. }
  assert (STEP : forall e, agree (scan (placement_str p ++ r) e) (scan r e)).
  { intros e. destruct p; [intros x; reflexivity|apply (scan_other ">"%char)|apply (scan_other "<"%char)]; unfold artic_chars; cbn; intros X; repeat destruct X as [X|X]; try discriminate; exact X. }
  assert (FA : a = Accent -> first_not "^"%char (placement_str p ++ r)) by (intros E; destruct p; [apply HA; auto|cbn; discriminate..]).
  assert (FS : a = Staccato -> first_not "'"%char (placement_str p ++ r)) by (intros E; destruct p; [apply HS; auto|cbn; discriminate..]).
  destruct RD as (G & P). set (w := placement_str p ++ r) in *. clearbody w.
  assert (ONE : forall c, is_digit c = false -> artic_str a = [c] -> (c = "^"%char -> a = Accent) -> (c = "'"%char -> a = Staccato) -> agree (scan (artic_str a ++ w) d) (scan r (note_artic (artic_str a) (false, p) d))).
  { intros c D E E1 E2. rewrite E. cbn [app scan_artics]. rewrite D, G, P.
    destruct w as [|c1 w']; [apply STEP|]. 
    assert (X1 : Ascii.eqb c "^" && Ascii.eqb c1 "^" = false). { destruct (Ascii.eqb c "^") eqn:A1; [|reflexivity]. apply Ascii.eqb_eq in A1. apply Ascii.eqb_neq. apply (FA (E1 A1)). }
    assert (X2 : Ascii.eqb c "'" && Ascii.eqb c1 "'" = false). { destruct (Ascii.eqb c "'") eqn:A1; [|reflexivity]. apply Ascii.eqb_eq in A1. apply Ascii.eqb_neq. apply (FS (E2 A1)). }
    rewrite X1, X2. apply STEP. }
  destruct a; try (eapply ONE; [|reflexivity| |]; [reflexivity|intros; first [reflexivity|discriminate]..]).
  cbn [artic_str app list_ascii_of_string]. change (S_ "^^" ++ w) with ("^"%char :: "^"%char :: w). cbn [scan_artics]. change (is_digit "^") with false. cbn [Ascii.eqb Bool.eqb andb]. rewrite G, P. apply STEP.
Qed.

Lemma write_first l r : harmless r -> plain r -> harmless (write_artics l ++ r) /\ (forall c, first_not c (write_artics l ++ r) \/ (exists a p l', l = (a, p) :: l' /\ hd_error (artic_str a) = Some c) \/ ~ In c artic_chars).
Proof.
  intros H N. destruct l as [|[a p] l].
  - cbn [write_artics map concat app]. split; [exact H|]. intros c. destruct (in_dec Ascii.ascii_dec c artic_chars) as [I|I]; [|right; right; exact I]. left. destruct r as [|x r]; [exact Logic.I|]. cbn. intros ->. apply (N c); [left; reflexivity|exact I].
  - unfold write_artics. cbn [map concat]. unfold write_artic at 1 3. cbn [fst snd]. rewrite <- !app_assoc. split.
    + destruct a; cbn; repeat split; discriminate.
    + intros c. destruct (Ascii.ascii_dec c (match artic_str a with x :: _ => x | [] => c end)) as [E|E].
      * right. left. exists a, p, l. split; [reflexivity|]. rewrite E. destruct a; reflexivity.
      * left. destruct a; cbn in E |- *; intros X; apply E; symmetry; exact X.
Qed.

Fixpoint apart (l : list (artic * placement)) : Prop :=
  match l with
  | x :: r => match r with y :: _ => ~ (x = (Accent, PNone) /\ fst y = StrongAccent) | [] => True end /\ apart r
  | [] => True
  end.
Definition tidy (l : list (artic * placement)) : Prop := NoDup (map fst l) /\ apart l.
Lemma tidy_tl x l : tidy (x :: l) -> tidy l.
Proof. intros (A & B). split; [inversion A; assumption|]. apply B. Qed.
Definition notes (l : list (artic * placement)) (d : found) : found := fold_left (fun d x => note_artic (artic_str (fst x)) (false, snd x) d) l d.
Lemma scan_write l : forall r d, tidy l -> harmless r -> plain r -> agree (scan (write_artics l ++ r) d) (notes l d).
Proof.
  induction l as [|[a p] l IH]; intros r d T H N; [apply scan_suffix; exact N|].
  destruct (write_first l r H N) as (H' & F). unfold write_artics. cbn [map concat]. rewrite <- app_assoc. fold (write_artics l).
  eapply agree_trans; [apply scan_artic; [exact H'| |]|apply (IH r); [eapply tidy_tl; exact T|exact H|exact N]].
  - intros -> ->. destruct (F "^"%char) as [X|[(a & q & l' & -> & E)|X]]; [exact X| |exfalso; apply X; unfold artic_chars; cbn [In]; tauto].
    exfalso. destruct T as (ND & T). destruct a; cbn in E; try discriminate; [apply (proj1 T); split; reflexivity|]. inversion ND as [|? ? NI _]; subst. apply NI. left. reflexivity.
  - intros -> ->. destruct (F "'"%char) as [X|[(a & q & l' & -> & E)|X]]; [exact X| |exfalso; apply X; unfold artic_chars; cbn [In]; tauto].
    exfalso. destruct T as (ND & T). destruct a; cbn in E; try discriminate. inversion ND as [|? ? NI _]; subst. apply NI. left. reflexivity.
Qed.
Lemma artic_str_inj a b : artic_str a = artic_str b -> a = b.
Proof. destruct a, b; cbn; intros E; first [reflexivity|discriminate]. Qed.
Lemma notes_lookup l : forall d a, NoDup (map fst l) -> notes l d (artic_str a) = match find (fun x => str_eqb (artic_str a) (artic_str (fst x))) l with Some x => Some (false, snd x) | None => d (artic_str a) end.
Proof.
  induction l as [|[b p] l IH]; intros d a ND; [reflexivity|]. cbn [notes fold_left find fst snd]. fold (notes l (note_artic (artic_str b) (false, p) d)). inversion ND as [|? ? NI ND']; subst. rewrite IH by exact ND'.
  unfold note_artic. destruct (str_eqb (artic_str a) (artic_str b)) eqn:E; [|reflexivity]. apply str_eqb_eq, artic_str_inj in E. subst b.
  destruct (find _ l) as [[c q]|] eqn:F; [|reflexivity]. exfalso. apply find_some in F. destruct F as (I & F). cbn [fst] in F. apply str_eqb_eq, artic_str_inj in F. subst c. apply NI. change a with (fst (a, q)). apply in_map. exact I.
Qed.
Lemma read_in d a p : In (a, p) (flat_map (pick d) stacking) <-> d (artic_str a) = Some (false, p).
Proof.
  rewrite in_flat_map. unfold pick. split.
  - intros (b & _ & I). destruct (d (artic_str b)) as [[[|] q]|] eqn:E; try contradiction. destruct I as [X|[]]. injection X as <- <-. exact E.
  - intros E. exists a. split; [destruct a; unfold stacking; cbn [In]; tauto|]. rewrite E. left. reflexivity.
Qed.
Lemma read_sorted d : StronglySorted (fun x y : artic * placement => stack_rank (fst x) < stack_rank (fst y)) (flat_map (pick d) stacking).
Proof.
  assert (G : forall l, StronglySorted (fun x y => stack_rank x < stack_rank y) l -> StronglySorted (fun x y : artic * placement => stack_rank (fst x) < stack_rank (fst y)) (flat_map (pick d) l)).
  { induction 1 as [|x l O IH B]; [constructor|]. cbn [flat_map]. assert (FB : forall p : placement, Forall (fun y => stack_rank (fst (x, p)) < stack_rank (fst y)) (flat_map (pick d) l)).
    { intros p. apply Forall_forall. intros [y q] I. apply in_flat_map in I. destruct I as (z & Z & I). unfold pick in I. destruct (d (artic_str z)) as [[[|] w]|]; try contradiction. destruct I as [E|[]]. injection E as <- <-.
      cbn [fst]. rewrite Forall_forall in B. apply B. exact Z. }
    unfold pick at 1. destruct (d (artic_str x)) as [[[|] p]|]; cbn [app]; [exact IH|constructor; [exact IH|apply FB]|exact IH]. }
  apply G. unfold stacking. repeat (constructor; [|repeat (constructor; [cbn; lia|]); constructor]). constructor.
Qed.
Lemma scan_find l d a p : NoDup (map fst l) -> agree d (notes l no_artics) -> d (artic_str a) = Some (false, p) <-> In (a, p) l.
Proof.
  intros ND A. rewrite (A a), notes_lookup by exact ND. destruct (find _ l) as [[b q]|] eqn:F.
  - apply find_some in F. destruct F as (I & F). cbn [fst snd] in *. apply str_eqb_eq, artic_str_inj in F. subst b. split; [intros E; injection E as <-; exact I|]. intros I'.
    assert (q = p); [|subst; reflexivity]. clear -ND I I'. induction l as [|[x y] l IH]; [contradiction|]. cbn [map fst] in ND. inversion ND as [|? ? NI ND']; subst.
    destruct I as [E|I], I' as [E'|I']; [congruence| | |auto]; exfalso; apply NI; [injection E as -> _|injection E' as -> _]; match goal with H : In (?x, ?z) l |- _ => change x with (fst (x, z)); apply in_map; exact H end.
  - split; [discriminate|]. intros I. exfalso. assert (X := find_none _ _ F _ I). cbn [fst] in X. assert (str_eqb (artic_str a) (artic_str a) = true) by (apply str_eqb_eq; reflexivity). congruence.
Qed.

(** An accent before a strong accent, both without placement, may as well stand after it. *)
Fixpoint swap (l : list (artic * placement)) : list (artic * placement) :=
  match l with
  | (Accent, PNone) :: (StrongAccent, PNone) :: r => (StrongAccent, PNone) :: (Accent, PNone) :: r
  | x :: r => x :: swap r
  | [] => []
  end.
Lemma swap_cases x r : (exists r', x = (Accent, PNone) /\ r = (StrongAccent, PNone) :: r' /\ swap (x :: r) = (StrongAccent, PNone) :: x :: r') \/
  ((x = (Accent, PNone) -> forall r', r <> (StrongAccent, PNone) :: r') /\ swap (x :: r) = x :: swap r).
Proof.
  destruct x as [[] []]; try (right; split; [discriminate|reflexivity]). destruct r as [|[[] []] r]; try (right; split; [intros _ r' E; discriminate|reflexivity]).
  left. exists r. split; [reflexivity|]. split; reflexivity.
Qed.
Lemma swap_write l : write_artics (swap l) = write_artics l.
Proof.
  induction l as [|x r IH]; [reflexivity|]. destruct (swap_cases x r) as [(r' & -> & -> & ->)|(_ & ->)]; [reflexivity|]. unfold write_artics in *. cbn [map concat]. rewrite IH. reflexivity.
Qed.
Lemma swap_perm l : Permutation (swap l) l.
Proof.
  induction l as [|x r IH]; [constructor|]. destruct (swap_cases x r) as [(r' & -> & -> & ->)|(_ & ->)]; [apply perm_swap|]. apply perm_skip. exact IH.
Qed.
Lemma apart_no_accent l : ~ In Accent (map fst l) -> apart l.
Proof.
  induction l as [|x r IH]; intros N; [exact I|]. cbn [apart]. split; [|apply IH; intros X; apply N; right; exact X]. destruct r as [|y r]; [exact I|]. intros (-> & _). apply N. left. reflexivity.
Qed.
Lemma swap_apart l : NoDup (map fst l) -> ~ accents_clash l -> apart (swap l).
Proof.
  induction l as [|x r IH]; intros ND NC; [exact I|]. inversion ND as [|? ? NI ND']; subst. destruct (swap_cases x r) as [(r' & -> & -> & ->)|(N & ->)].
  - cbn [map fst] in *. inversion ND' as [|? ? NI' ND'']; subst. cbn [apart]. split; [intros (E & _); discriminate|]. split.
    + destruct r' as [|y r']; [exact I|]. intros (_ & E). apply NI'. left. exact E.
    + apply apart_no_accent. intros X. apply NI. right. exact X.
  - cbn [apart]. split; [|apply IH; [exact ND'|intros (a & b & p & -> & X); apply NC; exists (x :: a), b, p; split; [reflexivity|exact X]]].
    destruct (swap r) as [|y s] eqn:E; [exact I|]. intros (-> & Y). destruct r as [|z r]; [discriminate|].
    destruct (swap_cases z r) as [(r' & -> & _ & _)|(_ & E2)]; [apply NI; left; reflexivity|]. rewrite E2 in E. injection E as -> _. destruct y as [b p]. cbn [fst] in Y. subst b.
    destruct p; [exact (N eq_refl r eq_refl)|apply NC; exists [], r, PAbove; split; [reflexivity|discriminate]|apply NC; exists [], r, PBelow; split; [reflexivity|discriminate]].
Qed.

(** Partial: no articulation of one kind twice, and no accent without a placement directly
    before a strong accent with one.  The articulations read from the token are those written,
    with their placements, in stacking order. *)
Theorem C83_partial l before after : NoDup (map fst l) -> ~ accents_clash l -> plain before -> plain after -> harmless after ->
  (forall a p, In (a, p) (read_exported (before ++ write_artics l ++ after)) <-> In (a, p) l) /\
  StronglySorted (fun x y => stack_rank (fst x) < stack_rank (fst y)) (read_exported (before ++ write_artics l ++ after)).
Proof.
  intros ND NC NB NA HA. unfold read_exported, read_artics. split; [|apply read_sorted]. intros a p. rewrite read_in. rewrite <- (swap_write l).
  assert (PM := swap_perm l). assert (ND' : NoDup (map fst (swap l))) by (eapply Permutation_NoDup; [apply Permutation_map, Permutation_sym; exact PM|exact ND]).
  rewrite (scan_find (swap l) _ a p ND' (agree_trans _ _ _ (scan_plain before (write_artics (swap l) ++ after) no_artics NB) (scan_write (swap l) after no_artics (conj ND' (swap_apart l ND NC)) HA NA))).
  split; apply Permutation_in; [exact PM|apply Permutation_sym; exact PM].
Qed.
Print Assumptions C83_partial.
Example C83_nonvacuous : read_exported (S_ "4cc#" ++ write_artics [(UpBow, PNone); (Accent, PNone); (StrongAccent, PNone); (Staccato, PBelow)] ++ S_ "\yy") =
  [(Staccato, PBelow); (StrongAccent, PNone); (Accent, PNone); (UpBow, PNone)].
Proof. vm_compute. reflexivity. Qed.

(** Without the conditions the claim is false: an accent before a strong accent placed below
    gives a strong accent and an accent placed below; two accents give a strong accent. *)
Theorem C83_refuted :
  (exists l a p, NoDup (map fst l) /\ In (a, p) l /\ ~ In (a, p) (read_exported (S_ "4c" ++ write_artics l))) /\
  (exists l a, (forall b p, In (b, p) l -> b <> a) /\ In (a, PNone) (read_exported (S_ "4c" ++ write_artics l))).
Proof.
  split.
  - exists [(Accent, PNone); (StrongAccent, PBelow)], Accent, PNone. split; [|split].
    + cbn. constructor; [intros [X|[]]; discriminate|]. constructor; [intros []|constructor].
    + left. reflexivity.
    + vm_compute. intros [X|[X|[]]]; discriminate.
  - exists [(Accent, PNone); (Accent, PNone)], StrongAccent. split; [intros b p [E|[E|[]]]; injection E as <- _; discriminate|]. vm_compute. left. reflexivity.
Qed.
Print Assumptions C83_refuted.
