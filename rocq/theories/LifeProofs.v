From Coq Require Import Lia.
From Verif Require Import PyStr PyStrProofs DateModel DateProofs LifeModel.

Lemma caret_same s : char_in "-" s = false -> caret s = s.
Proof.
  unfold char_in, caret. induction s as [|c s IH]; [reflexivity|]. cbn [existsb map]. intros H. apply orb_false_iff in H as [H1 H2].
  rewrite Ascii.eqb_sym, H1, IH by exact H2. reflexivity.
Qed.
Lemma caret_no s : char_in "-" (caret s) = false.
Proof.
  unfold char_in, caret. induction s as [|c s IH]; [reflexivity|]. cbn [existsb map]. rewrite IH, orb_false_r.
  destruct (Ascii.eqb_spec c "-") as [E|E]; [reflexivity|]. apply Ascii.eqb_neq. congruence.
Qed.
Lemma date_no d c : date_writable d -> In c ["-"; "~"; "?"; ">"; "<"; "^"; "|"; " "]%char -> char_in c (stringFromDate d) = false.
Proof. intros W I. destruct (date_read_back d W) as (_ & _ & H). apply H, outsiders, I. Qed.
Lemma date_head d cs : date_writable d -> incl cs ["-"; "~"; "?"; ">"; "<"; "^"; "|"; " "]%char -> head_in cs (stringFromDate d) = false.
Proof. intros W I. apply head_not. intros c C. apply date_no; auto. Qed.

Definition caret_text (p : dateprim) : str :=
  match p with DateBetween a b => stringFromDate a ++ S_ "^" ++ stringFromDate b | _ => stringFromM21DateObject p end.
Lemma caret_written p : prim_writable p -> caret (stringFromM21DateObject p) = caret_text p.
Proof.
  destruct p as [d r|d r|a b|l r]; cbn [prim_writable stringFromM21DateObject caret_text].
  - intros W. apply caret_same. rewrite char_in_app, (date_no d) by (assumption || cbn; tauto). destruct r; reflexivity.
  - intros [W _]. apply caret_same. rewrite char_in_app, (date_no d) by (assumption || cbn; tauto). destruct r; reflexivity.
  - intros [WA WB]. unfold caret. rewrite !map_app. pose proof (caret_same (stringFromDate a)) as A. pose proof (caret_same (stringFromDate b)) as B.
    unfold caret in A, B. rewrite A, B by (apply date_no; assumption || cbn; tauto). reflexivity.
  - intros (W & _ & _). apply caret_same. apply char_in_join; [reflexivity|]. intros w I. apply in_map_iff in I as (d & <- & I).
    rewrite Forall_forall in W. apply date_no; [apply W, I|cbn; tauto].
Qed.
Lemma caret_nonempty p : prim_writable p -> caret_text p <> [].
Proof.
  destruct p as [d r|d r|a b|l r]; cbn [prim_writable stringFromM21DateObject caret_text].
  - intros W E. apply app_eq_nil in E as [_ E]. apply date_read_back in W. tauto.
  - intros [W _] E. apply app_eq_nil in E as [_ E]. apply date_read_back in W. tauto.
  - intros [W _] E. apply app_eq_nil in E as [E _]. apply date_read_back in W. tauto.
  - intros (W & _ & L) E. destruct l as [|d1 [|d2 l]]; cbn [length] in L; try lia. cbn [map join] in E. apply app_eq_nil in E as [E _].
    apply Forall_inv, date_read_back in W. tauto.
Qed.
Lemma caret_read p : prim_writable p -> m21DatePrimitiveFromString (caret_text p) = Some p.
Proof.
  destruct p as [d r|d r|a b|l r]; try exact (prim_read_back _). cbn [prim_writable caret_text]. intros [WA WB].
  destruct (date_read_back a WA) as (RA & NA & _). destruct (date_read_back b WB) as (RB & _ & _).
  set (t := stringFromDate a ++ S_ "^" ++ stringFromDate b).
  assert (C : forall c, In c ["-"; ">"; "<"; "|"]%char -> char_in c t = false).
  { intros c I. unfold t. rewrite !char_in_app, !date_no by (assumption || (cbn in *; tauto)). cbn [In] in I. intuition (subst; reflexivity). }
  assert (X : char_in "^" t = true) by (unfold t; rewrite !char_in_app; cbn; apply orb_true_r).
  unfold m21DatePrimitiveFromString. destruct t as [|c0 t0] eqn:ET; [discriminate X|]. rewrite <- ET in *.
  rewrite count_char_not_in by (apply C; cbn; tauto). cbn [Nat.ltb Nat.leb Nat.eqb andb].
  rewrite !head_not by (intros c [<-|[]]; apply C; cbn; tauto). rewrite (C "-"%char), X by (cbn; tauto).
  unfold t. change (S_ "^" ++ stringFromDate b) with ("^"%char :: stringFromDate b). rewrite split_first_app by (apply date_no; [exact WA|cbn; tauto]).
  cbn [existsb]. rewrite !date_head by (assumption || (intros c [<-|[<-|[]]]; cbn; tauto)). cbn [orb map all_some]. rewrite RA, RB. reflexivity.
Qed.
Lemma range_text p q : prim_writable p -> prim_writable q -> stringFromRange p q = caret_text p ++ S_ "-" ++ caret_text q.
Proof.
  intros P Q. pose proof (caret_written p P) as EP. pose proof (caret_written q Q) as EQ.
  destruct p as [a []| | | ]; cbn [stringFromRange]; try (rewrite EP, EQ; reflexivity).
  destruct q as [b []| | | ]; try (rewrite EP, EQ; reflexivity). reflexivity.
Qed.
Lemma caret_text_no p : prim_writable p -> char_in "-" (caret_text p) = false.
Proof. intros W. rewrite <- caret_written by exact W. apply caret_no. Qed.
Lemma range_split p q : prim_writable p -> prim_writable q -> split_char "-" (stringFromRange p q) = [caret_text p; caret_text q].
Proof.
  intros P Q. rewrite range_text by assumption. change (S_ "-" ++ caret_text q) with ("-"%char :: caret_text q).
  rewrite split_char_app, split_char_no_sep by (apply caret_text_no; assumption). reflexivity.
Qed.
Theorem range_read p q : prim_writable p -> prim_writable q -> rangeFromString (stringFromRange p q) = (Some p, Some q).
Proof. intros P Q. unfold rangeFromString. rewrite range_split, !caret_read by assumption. reflexivity. Qed.

(** ** A text with a divider is no date *)
Definition alien (c : ascii) : Prop := In c ["^"; "|"]%char.
Lemma alien_digits c s : alien c -> char_in c s = true -> forallb is_digit s = false.
Proof.
  intros A H. apply not_true_iff_false. intros F. rewrite forallb_forall in F. unfold char_in in H. apply existsb_exists in H as (x & I & E).
  apply Ascii.eqb_eq in E. subst x. specialize (F c I). destruct A as [<-|[<-|[]]]; discriminate F.
Qed.
Lemma alien_strip c s : alien c -> char_in c (fst (stripDateError s)) = char_in c s.
Proof.
  intros A. unfold stripDateError. destruct (find _ s) as [m|] eqn:F; [|reflexivity]. apply find_some in F as [_ F]. cbn [fst].
  assert (N : Ascii.eqb c m = false).
  { apply Ascii.eqb_neq. intros <-. destruct A as [<-|[<-|[]]]; discriminate F. }
  clear F. unfold char_in. induction s as [|x s IH]; [reflexivity|]. cbn [filter existsb].
  destruct (Ascii.eqb_spec x m) as [-> |D]; cbn [negb existsb]; rewrite IH; [rewrite N; reflexivity|reflexivity].
Qed.
Lemma alien_minus c s : alien c -> char_in c s = true -> char_in c (at_to_minus s) = true.
Proof.
  intros A H. unfold at_to_minus. destruct s as [|x s]; [exact H|]. destruct (_ && _) eqn:E; [|exact H].
  apply andb_true_iff in E as [_ E]. apply Ascii.eqb_eq in E. subst x. unfold char_in in *. cbn [existsb] in *.
  destruct A as [<-|[<-|[]]]; exact H.
Qed.
Lemma alien_int c s : alien c -> char_in c s = true -> py_int s = None.
Proof.
  intros A H.
  assert (D : forall t, char_in c t = true -> digits_only t = false) by (intros t T; destruct t; [reflexivity|exact (alien_digits c _ A T)]).
  assert (T : forall x t, x <> c -> char_in c (x :: t) = true -> char_in c t = true).
  { intros x t N X. unfold char_in in *. cbn [existsb] in X. destruct (Ascii.eqb_spec c x); [congruence|exact X]. }
  unfold py_int. destruct s as [|x s]; [discriminate H|].
  destruct (Ascii.eqb_spec x "-") as [-> |N1]; [rewrite (D s); [reflexivity|]; apply (T "-"%char); [destruct A as [<-|[<-|[]]]; discriminate|exact H]|].
  destruct (Ascii.eqb_spec x "+") as [-> |N2]; [rewrite (D s); [reflexivity|]; apply (T "+"%char); [destruct A as [<-|[<-|[]]]; discriminate|exact H]|].
  rewrite (D (x :: s) H). destruct x as [[] [] [] [] [] [] [] []]; try reflexivity; congruence.
Qed.
Lemma span_alien c s : alien c -> char_in c s = true -> exists a x r, span is_digit s = (a, x :: r) /\ char_in c (x :: r) = true.
Proof.
  intros A. induction s as [|y s IH]; [discriminate|]. cbn [span]. intros H. destruct (is_digit y) eqn:E.
  - unfold char_in in H. cbn [existsb] in H. destruct (Ascii.eqb_spec c y) as [-> |N]; [destruct A as [<-|[<-|[]]]; discriminate E|].
    destruct (IH H) as (a & x & r & S & C). rewrite S. exists (y :: a), x, r. split; [reflexivity|exact C].
  - exists [], y, s. split; [reflexivity|exact H].
Qed.
Lemma alien_float c s : alien c -> char_in c s = true -> py_float_int s = None.
Proof.
  intros A H. unfold py_float_int. assert (G : char_in c (snd (split_sign s)) = true).
  { destruct s as [|x s]; [discriminate H|]. destruct A as [<-|[<-|[]]]; (destruct x as [[] [] [] [] [] [] [] []]; exact H). }
  destruct (split_sign s) as [neg s1]. cbn [snd] in G. destruct (span_alien c s1 A G) as (a & x & r & S & C). rewrite S.
  assert (R : (if forallb is_digit r && negb (match a, r with [], [] => true | _, _ => false end) then Some (parse_N a) else None) = None \/ x <> "."%char).
  { destruct (Ascii.eqb_spec x ".") as [-> |]; [left|right; assumption].
    assert (C' : char_in c r = true) by (unfold char_in in *; cbn [existsb] in C; destruct A as [<-|[<-|[]]]; exact C).
    rewrite (alien_digits c r A C'). reflexivity. }
  destruct R as [R|R].
  - destruct x as [[] [] [] [] [] [] [] []]; try reflexivity. rewrite R. reflexivity.
  - destruct x as [[] [] [] [] [] [] [] []]; try reflexivity. congruence.
Qed.
Lemma alien_chunk c i s : alien c -> char_in c s = true -> read_chunk i s = None.
Proof.
  intros A H. unfold read_chunk. pose proof (alien_strip c s A) as E. rewrite H in E. destruct (stripDateError s) as [v e]. cbn [fst] in E.
  set (w := if i =? 0 then at_to_minus v else v). assert (W : char_in c w = true) by (unfold w; destruct (i =? 0); [apply alien_minus|]; assumption).
  destruct w as [|x w']; [discriminate W|]. rewrite (alien_int c), (alien_float c) by assumption. destruct (i =? 5); reflexivity.
Qed.
Lemma alien_chunks c cs : alien c -> forall i, existsb (char_in c) cs = true -> read_chunks i cs = None.
Proof.
  intros A. induction cs as [|s cs IH]; intros i H; [discriminate|]. cbn [existsb read_chunks] in *. apply orb_true_iff in H as [H|H].
  - rewrite (alien_chunk c) by assumption. reflexivity.
  - rewrite IH by exact H. destruct (read_chunk i s); reflexivity.
Qed.
Lemma split_keeps c d s : c <> d -> existsb (char_in c) (split_char d s) = char_in c s.
Proof.
  intros N. induction s as [|x s IH]; [reflexivity|]. cbn [split_char]. destruct (Ascii.eqb_spec x d) as [-> |D].
  - cbn [existsb]. rewrite IH. unfold char_in at 3. cbn [existsb]. apply Ascii.eqb_neq in N. rewrite N. reflexivity.
  - destruct (split_char d s) as [|w ws] eqn:S; [exfalso; revert S; apply split_char_nonempty|]. cbn [existsb] in *. unfold char_in in *. cbn [existsb].
    rewrite <- IH, orb_assoc. reflexivity.
Qed.
Lemma alien_date c s : alien c -> char_in c s = true -> dateFromString s = None.
Proof.
  intros A H. unfold dateFromString. rewrite (alien_chunks c); [reflexivity|exact A|].
  rewrite split_keeps by (destruct A as [<-|[<-|[]]]; discriminate).
  unfold char_in in *. apply existsb_exists in H as (x & I & E). apply Ascii.eqb_eq in E. subst x. apply existsb_exists. exists c.
  split; [|apply Ascii.eqb_refl]. apply filter_In. split; [|destruct A as [<-|[<-|[]]]; reflexivity].
  apply in_map_iff. exists c. split; [destruct A as [<-|[<-|[]]]; reflexivity|exact I].
Qed.

(** ** A range of dates and a range of date objects *)
Definition plain (p : dateprim) : bool := match p with DateSingle _ Certain => true | _ => false end.
Definition marks : list ascii := ["~"; "?"; ">"; "<"]%char.
Lemma kinds p : prim_writable p -> plain p = false ->
  head_in marks (caret_text p) = true \/ (head_in marks (caret_text p) = false /\ dateFromString (caret_text p) = None).
Proof.
  destruct p as [d r|d r|a b|l r]; cbn [prim_writable plain].
  - intros W P. left. destruct r; [discriminate P| |]; reflexivity.
  - intros [W [-> | ->]] _; left; reflexivity.
  - intros [WA WB] _. right. assert (X : char_in "^" (caret_text (DateBetween a b)) = true) by (cbn [caret_text]; rewrite !char_in_app; cbn; apply orb_true_r).
    split; [|apply (alien_date "^"); [left; reflexivity|exact X]]. cbn [caret_text].
    destruct (date_read_back a WA) as (_ & N & _). assert (H : head_in marks (stringFromDate a) = false) by (apply date_head; [exact WA|intros c I; cbn in *; tauto]).
    destruct (stringFromDate a) as [|c s]; [contradiction|exact H].
  - intros (W & _ & L) _. right. destruct l as [|d1 [|d2 l]]; cbn [length] in L; try lia.
    assert (X : char_in "|" (caret_text (DateSelection (d1 :: d2 :: l) r)) = true).
    { cbn [caret_text stringFromM21DateObject map].
      change (char_in "|" (stringFromDate d1 ++ S_ "|" ++ join (S_ "|") (stringFromDate d2 :: map stringFromDate l)) = true).
      rewrite !char_in_app. cbn. apply orb_true_r. }
    split; [|apply (alien_date "|"); [right; left; reflexivity|exact X]]. cbn [caret_text stringFromM21DateObject map].
    apply Forall_inv in W. destruct (date_read_back d1 W) as (_ & N & _).
    assert (H : head_in marks (stringFromDate d1) = false) by (apply date_head; [exact W|intros c I; cbn in *; tauto]).
    destruct (stringFromDate d1) as [|c s]; [contradiction|exact H].
Qed.
Lemma plain_head p : prim_writable p -> plain p = true -> head_in marks (caret_text p) = false.
Proof. destruct p as [d []| | | ]; try discriminate. intros W _. apply date_head; [exact W|intros c I; cbn in *; tauto]. Qed.
Lemma head_marks s : head_in marks s = false -> head_in ["<"]%char s = false /\ head_in [">"]%char s = false /\ head_in ["~"; "?"]%char s = false.
Proof. destruct s as [|c s]; [repeat split; reflexivity|]. cbn. rewrite !orb_false_r. intros H. repeat (apply orb_false_iff in H as [? H]). rewrite H, H2. repeat split; try assumption. rewrite H0, H1. reflexivity. Qed.
Lemma head_app cs s t : s <> [] -> head_in cs (s ++ t) = head_in cs s.
Proof. destruct s; [contradiction|reflexivity]. Qed.

Theorem range_whole p q : prim_writable p -> prim_writable q ->
  m21DatePrimitiveFromString (stringFromRange p q)
  = match p, q with DateSingle a Certain, DateSingle b Certain => Some (DateBetween a b) | _, _ => None end.
Proof.
  intros P Q. destruct (plain p && plain q) eqn:PL.
  - apply andb_true_iff in PL as [PP PQ]. destruct p as [a []| | | ]; try discriminate PP. destruct q as [b []| | | ]; try discriminate PQ.
    cbn [stringFromRange]. apply prim_read_back. split; assumption.
  - assert (E : (match p, q with DateSingle a Certain, DateSingle b Certain => Some (DateBetween a b) | _, _ => None end) = None).
    { destruct p as [a []| | | ]; try reflexivity. destruct q as [b []| | | ]; try reflexivity. discriminate PL. }
    rewrite E. clear E. pose proof (range_split p q P Q) as SP. pose proof (range_text p q P Q) as T.
    pose proof (caret_text_no p P) as NP. pose proof (caret_text_no q Q) as NQ. pose proof (caret_nonempty p P) as EP.
    unfold m21DatePrimitiveFromString. set (s := stringFromRange p q) in *.
    assert (C1 : count_char "-" s = 1) by (rewrite T, !count_char_app, (count_char_not_in _ (caret_text p)), (count_char_not_in _ (caret_text q)) by assumption; reflexivity).
    assert (CI : char_in "-" s = true) by (rewrite T, !char_in_app; cbn; apply orb_true_r).
    destruct s as [|c0 s0] eqn:ES; [discriminate CI|]. rewrite <- ES in *. clear ES c0 s0. rewrite C1, SP. cbn [Nat.ltb Nat.leb Nat.eqb andb existsb].
    change ["~"; "?"; ">"; "<"]%char with marks.
    destruct (head_in marks (caret_text p)) eqn:HP; [reflexivity|]. destruct (head_in marks (caret_text q)) eqn:HQ; [reflexivity|]. cbn [orb].
    destruct (head_marks _ HP) as (HP1 & HP2 & HP3). destruct (head_marks _ HQ) as (_ & _ & HQ3).
    assert (H1 : head_in ["<"]%char s = false) by (rewrite T, head_app; assumption).
    assert (H2 : head_in [">"]%char s = false) by (rewrite T, head_app; assumption).
    rewrite H1, H2, CI.
    assert (SF : split_first "-" s = (caret_text p, caret_text q)).
    { rewrite T. change (S_ "-" ++ caret_text q) with ("-"%char :: caret_text q). apply split_first_app. exact NP. }
    rewrite SF. cbn [existsb]. rewrite HP3, HQ3. cbn [orb map all_some].
    apply andb_false_iff in PL as [PL|PL].
    + destruct (kinds p P PL) as [K|[_ K]]; [congruence|rewrite K; reflexivity].
    + destruct (kinds q Q PL) as [K|[_ K]]; [congruence|]. rewrite K. destruct (dateFromString (caret_text p)); reflexivity.
Qed.

(** ** Dates of birth and death in MEI *)
Definition prim_life (p : dateprim) : Prop :=
  match p with
  | DateSingle d _ => calendar d /\ last_mark d = None
  | DateRelative d r => calendar d /\ (r = Prior \/ r = After)
  | DateBetween a b => calendar a /\ calendar b
  | DateSelection l _ => Forall calendar l
  end.
Lemma split_dots_app x : char_in "." x = false -> forall y f, length x < f -> split_dots f (x ++ S_ ".." ++ y) = x :: split_dots (f - S (length x)) y.
Proof.
  induction x as [|c x IH]; intros H y f L.
  - destruct f as [|f]; [lia|]. cbn [app length]. replace (S f - 1) with f by lia. reflexivity.
  - destruct f as [|f]; [cbn in L; lia|]. unfold char_in in H. cbn [existsb] in H. apply orb_false_iff in H as [H1 H2].
    cbn [app split_dots length] in *.
    assert (SW : starts_with (S_ "..") (c :: x ++ S_ ".." ++ y) = false) by (cbn [starts_with S_ list_ascii_of_string]; rewrite H1; reflexivity).
    cbn [app S_ list_ascii_of_string] in *. rewrite SW, IH by (exact H2 || lia). reflexivity.
Qed.
Lemma split_dots_none y : char_in "." y = false -> forall f, length y < f -> split_dots f y = [y].
Proof.
  induction y as [|c y IH]; intros H f L; [destruct f; reflexivity|]. destruct f as [|f]; [cbn in L; lia|].
  unfold char_in in H. cbn [existsb] in H. apply orb_false_iff in H as [H1 H2]. cbn [split_dots length] in *.
  assert (SW : starts_with (S_ "..") (c :: y) = false) by (cbn [starts_with S_ list_ascii_of_string]; rewrite H1; reflexivity).
  rewrite SW, IH by (exact H2 || lia). reflexivity.
Qed.
Theorem nested_read p : prim_life p -> exists s, nestedEdtf p = Some s /\ m21DatePrimitiveFromIsoDate s = Some p /\ s <> [].
Proof.
  assert (O : forall d, calendar d -> m21DateFromIsoDate (isoDateFromM21Date true d) = Some d /\ iso_like (isoDateFromM21Date true d)).
  { intros d C. apply iso_read_back; auto. }
  assert (OS : forall d, calendar d -> (match isoDateFromM21Date true d with [] => None | s => Some s end) = Some (isoDateFromM21Date true d)).
  { intros d C. destruct (O d C) as (_ & (c & t & E & _) & _). rewrite E. reflexivity. }
  assert (NE : forall s p, m21DatePrimitiveFromIsoDate s = Some p -> s <> []) by (intros s q E ->; discriminate E).
  enough (G : prim_life p -> exists s, nestedEdtf p = Some s /\ m21DatePrimitiveFromIsoDate s = Some p).
  { intros H. destruct (G H) as (s & E1 & E2). exists s. split; [exact E1|]. split; [exact E2|]. exact (NE _ _ E2). }
  destruct p as [d r|d r|a b|l r]; cbn [prim_life].
  - intros (C & M). destruct r.
    + destruct (edtf_read_back (DateSingle d Certain)) as (s & E & R); [repeat split; try assumption; apply C|]. exists s. split; [|exact R].
      cbn [edtfFromM21DatePrimitive nestedEdtf] in *. rewrite E. cbn [option_map]. rewrite app_nil_r. reflexivity.
    + cbn [nestedEdtf]. rewrite OS by exact C. cbn [option_map]. eexists. split; [reflexivity|].
      destruct (O d C) as (R & (c & t & E & DC) & N). set (s := isoDateFromM21Date true d) in *.
      assert (NS : char_in "/" (s ++ S_ "~") = false) by (rewrite char_in_app, N; [reflexivity|reflexivity|discriminate]).
      unfold m21DatePrimitiveFromIsoDate. rewrite (count_char_not_in _ _ NS), NS, rev_app_distr.
      assert (X1 : Ascii.eqb c "{" = false) by (apply Ascii.eqb_neq; intros ->; discriminate DC).
      assert (X2 : Ascii.eqb c "[" = false) by (apply Ascii.eqb_neq; intros ->; discriminate DC).
      rewrite E at 1. cbn [app Nat.ltb Nat.leb rev S_ list_ascii_of_string]. rewrite X1, X2, Ascii.eqb_refl. cbn [orb]. rewrite rev_involutive, R. reflexivity.
    + cbn [nestedEdtf]. rewrite OS by exact C. cbn [option_map]. eexists. split; [reflexivity|].
      destruct (O d C) as (R & (c & t & E & DC) & N). set (s := isoDateFromM21Date true d) in *.
      assert (NS : char_in "/" (s ++ S_ "?") = false) by (rewrite char_in_app, N; [reflexivity|reflexivity|discriminate]).
      unfold m21DatePrimitiveFromIsoDate. rewrite (count_char_not_in _ _ NS), NS, rev_app_distr.
      assert (X1 : Ascii.eqb c "{" = false) by (apply Ascii.eqb_neq; intros ->; discriminate DC).
      assert (X2 : Ascii.eqb c "[" = false) by (apply Ascii.eqb_neq; intros ->; discriminate DC).
      rewrite E at 1. cbn [app Nat.ltb Nat.leb rev S_ list_ascii_of_string]. rewrite X1, X2. change (Ascii.eqb "?" "~") with false. rewrite Ascii.eqb_refl. cbn [orb].
      rewrite rev_involutive, R. reflexivity.
  - exact (edtf_read_back (DateRelative d r)).
  - intros (CA & CB). cbn [nestedEdtf]. rewrite !OS by assumption. eexists. split; [reflexivity|].
    destruct (O a CA) as (RA & _ & NA). destruct (O b CB) as (RB & _ & NB).
    set (s := isoDateFromM21Date true a) in *. set (u := isoDateFromM21Date true b) in *.
    set (m := s ++ S_ ".." ++ u).
    assert (NM : forall c, isoc c = false -> c <> "-"%char -> c <> "."%char -> char_in c m = false).
    { intros c I N1 N2. unfold m. rewrite !char_in_app, NA, NB by assumption. cbn. apply Ascii.eqb_neq in N2. rewrite N2. reflexivity. }
    assert (ET : S_ "[" ++ s ++ S_ ".." ++ u ++ S_ "]" = "["%char :: m ++ ["]"%char]) by (unfold m; rewrite <- !app_assoc; reflexivity).
    rewrite ET. unfold m21DatePrimitiveFromIsoDate.
    assert (CS : count_char "/" ("["%char :: m ++ ["]"%char]) = 0).
    { apply count_char_not_in. change ("["%char :: m ++ ["]"%char]) with (S_ "[" ++ m ++ S_ "]"). rewrite !char_in_app, NM by (reflexivity || discriminate). reflexivity. }
    assert (HD : has_dots ("["%char :: m ++ ["]"%char]) = true).
    { change ("["%char :: m ++ ["]"%char]) with (S_ "[" ++ m ++ S_ "]"). unfold m. rewrite <- !app_assoc. apply has_dots_app, has_dots_app. reflexivity. }
    rewrite CS, HD. change (Ascii.eqb "[" "{" || Ascii.eqb "[" "[") with true. cbn [Nat.ltb Nat.leb andb]. rewrite Ascii.eqb_refl.
    rewrite strip_brackets by (auto || (intros x X; apply NM; repeat (destruct X as [<-|X]; [reflexivity || discriminate|]); destruct X)).
    assert (SA : char_in "." s = false) by (apply NA; [reflexivity|discriminate]). assert (SB : char_in "." u = false) by (apply NB; [reflexivity|discriminate]).
    assert (LM : length ("["%char :: m ++ ["]"%char]) = 4 + length s + length u) by (unfold m; cbn [length]; rewrite !app_length; cbn [length S_ list_ascii_of_string]; lia).
    unfold m at 2. rewrite (split_dots_app s SA) by (rewrite LM; lia). rewrite (split_dots_none u SB) by (rewrite LM; lia).
    unfold dates_of. cbn [flat_map]. rewrite RA, RB. reflexivity.
  - exact (edtf_read_back (DateSelection l r)).
Qed.

Theorem life_round p q : prim_writable p -> prim_writable q -> prim_life p -> prim_life q ->
  exists x y, birthAndDeathWritten (stringFromRange p q) = (Some x, Some y)
    /\ m21DatePrimitiveFromIsoDate x = Some p /\ m21DatePrimitiveFromIsoDate y = Some q.
Proof.
  intros P Q LP LQ. unfold birthAndDeathWritten. rewrite range_whole by assumption.
  destruct (nested_read p LP) as (x & EX & RX & NX). destruct (nested_read q LQ) as (y & EY & RY & NY).
  assert (TX : text_or_none x = Some x) by (destruct x; [contradiction|reflexivity]).
  assert (TY : text_or_none y = Some y) by (destruct y; [contradiction|reflexivity]).
  assert (N : (match edtfNestedDateRangeFromString (stringFromRange p q) with Some (x, y) => (text_or_none x, text_or_none y) | None => (None, None) end)
    = (Some x, Some y)).
  { unfold edtfNestedDateRangeFromString. rewrite range_read, EX, EY by assumption. rewrite TX, TY. reflexivity. }
  exists x, y. split; [|split; assumption]. destruct p as [a []| | | ]; try exact N. destruct q as [b []| | | ]; try exact N. clear N.
  destruct LP as [CA _], LQ as [CB _]. cbn [nestedEdtf edtfFromM21DatePrimitive] in *.
  destruct (iso_read_back true a CA (or_introl eq_refl)) as (_ & (c1 & t1 & E1 & _) & N1).
  destruct (iso_read_back true b CB (or_introl eq_refl)) as (_ & (c2 & t2 & E2 & _) & N2).
  assert (S1 : char_in "/" (isoDateFromM21Date true a) = false) by (apply N1; [reflexivity|discriminate]).
  assert (S2 : char_in "/" (isoDateFromM21Date true b) = false) by (apply N2; [reflexivity|discriminate]).
  rewrite E1 in *. rewrite E2 in *. cbn [option_map] in EX, EY. rewrite app_nil_r in EX, EY. injection EX as EX. injection EY as EY.
  change (S_ "/" ++ c2 :: t2) with ("/"%char :: c2 :: t2). rewrite split_char_app, split_char_no_sep by assumption. subst x y. reflexivity.
Qed.
