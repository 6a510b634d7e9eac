(** Properties of the text of MEI elements: C113. *)
From Coq Require Import List Ascii String Arith NArith ZArith Lia Bool.
From Verif Require Import PyStr PyStrProofs LayoutModel ClefModel MeiTextModel.
Import ListNotations.

(** ** C113: the text of an element is read as it is shown *)

(** Which of the alternatives of an `app` or `choice` element is shown: the first
    of the kind, where no kind that goes before it is there. *)
Definition first_named (n : str) (ss : list xml) (s : xml) : Prop :=
  exists pre post, ss = pre ++ s :: post /\ x_name s = n /\ Forall (fun x => x_name x <> n) pre.
Definition none_named (n : str) (ss : list xml) : Prop := Forall (fun x => x_name x <> n) ss.
Definition chosen (e s : xml) : Prop :=
  x_name e = S_ "app" /\ (first_named (S_ "lem") (x_subs e) s
                          \/ none_named (S_ "lem") (x_subs e) /\ first_named (S_ "rdg") (x_subs e) s)
  \/ x_name e = S_ "choice" /\ (first_named (S_ "corr") (x_subs e) s
       \/ none_named (S_ "corr") (x_subs e) /\ first_named (S_ "reg") (x_subs e) s
       \/ none_named (S_ "corr") (x_subs e) /\ none_named (S_ "reg") (x_subs e) /\ exists r, x_subs e = s :: r).

(** Elements of alternatives, and editorial elements around text. *)
Definition alternatives : list str := [S_ "app"; S_ "choice"].
Definition through : list str :=
  [S_ "add"; S_ "corr"; S_ "damage"; S_ "expan"; S_ "orig"; S_ "reg"; S_ "sic"; S_ "subst"; S_ "supplied"; S_ "unclear"].

(** White space that is only the layout of the file. *)
Definition layout (t : str) : Prop := (exists r, t = newline :: r) /\ forall c, In c t -> is_space c = true.

(** The value of an attribute that is given and not empty; of `rend`, only the
    shapes that enclose a text. *)
Definition given (attr : str) (a : list (str * str)) (v : str) : Prop :=
  v <> [] /\ (exists a1 a2, a = a1 ++ (attr, v) :: a2 /\ ~ In attr (map fst a1))
  /\ (attr = S_ "rend" -> In v [S_ "box"; S_ "circle"; S_ "dbox"; S_ "tbox"]).
(** The last one of the `rend` elements that gives the attribute counts. *)
Definition last_given (attr : str) (rs : list (list (str * str))) (v : str) : Prop :=
  exists pre a post, rs = pre ++ a :: post /\ given attr a v /\ Forall (fun b => forall w, ~ given attr b w) post.
Definition style_names : list (str * str) :=
  [(S_ "fontStyle", S_ "fontstyle"); (S_ "fontWeight", S_ "fontweight"); (S_ "fontSize", S_ "fontsize"); (S_ "fontFamily", S_ "fontfam");
   (S_ "justify", S_ "halign"); (S_ "color", S_ "color"); (S_ "enclosure", S_ "rend")].

Lemma assoc_given (attr : str) a v : v <> [] -> (x_get attr a = v <-> exists a1 a2, a = a1 ++ (attr, v) :: a2 /\ ~ In attr (map fst a1)).
Proof.
  intro V. unfold x_get. induction a as [|[k w] a IH]; cbn [assoc_str].
  - split; [congruence|]. intros (a1 & a2 & E & _). destruct a1; discriminate.
  - destruct (str_eqb attr k) eqn:K; [apply str_eqb_eq in K; subst k|apply str_eqb_neq in K].
    + split; [intros ->; exists [], a; split; [reflexivity|intros []]|]. intros (a1 & a2 & E & N). destruct a1 as [|[x y] a1]; [injection E as -> _; reflexivity|].
      injection E as <- _ _. exfalso. apply N. left. reflexivity.
    + rewrite IH. split; intros (a1 & a2 & E & N).
      * exists ((k, w) :: a1), a2. split; [rewrite E; reflexivity|]. intros [Q|Q]; [exact (K (eq_sym Q))|exact (N Q)].
      * destruct a1 as [|[x y] a1]; [injection E as Q _ _; congruence|]. injection E as _ _ E. exists a1, a2. split; [exact E|]. intro Q. apply N. right. exact Q.
Qed.
Lemma d_get_app k x y : d_get k (x ++ y) = match d_get k y with Some v => Some v | None => d_get k x end.
Proof.
  unfold d_get. rewrite rev_app_distr. generalize (rev y). clear y. intro y. induction y as [|[a b] y IH]; [reflexivity|]. cbn [app assoc_str]. destruct (str_eqb k a); [reflexivity|exact IH].
Qed.
Lemma d_get_one k key x : d_get k (match x with [] => [] | c :: v => [(key, c :: v)] end) = if str_eqb k key then match x with [] => None | c :: v => Some (c :: v) end else None.
Proof. destruct x; [destruct (str_eqb k key); reflexivity|]. unfold d_get. cbn. destruct (str_eqb k key); reflexivity. Qed.
Lemma d_get_if k key (b : bool) v : d_get k (if b then [(key, v)] else []) = if str_eqb k key then if b then Some v else None else None.
Proof. unfold d_get. destruct b; cbn; destruct (str_eqb k key); reflexivity. Qed.
Lemma rend_style_key k attr a : In (k, attr) style_names -> forall v, d_get k (rend_style a) = Some v <-> given attr a v.
Proof.
  intros I v. unfold rend_style. cbv beta zeta. rewrite !d_get_app, !d_get_one, d_get_if.
  assert (G : attr <> S_ "rend" -> match x_get attr a with [] => None | c :: s => Some (c :: s) end = Some v <-> given attr a v).
  { intro N. unfold given. split.
    - intro H. assert (E : x_get attr a = v /\ v <> []) by (destruct (x_get attr a); [discriminate|injection H as <-; split; [reflexivity|discriminate]]).
      destruct E as (E & V). split; [exact V|]. split; [apply (assoc_given _ _ _ V); exact E|intro; contradiction].
    - intros (V & E & _). apply (assoc_given _ _ _ V) in E. rewrite E. destruct v; [contradiction|reflexivity]. }
  repeat (destruct I as [E|I]; [injection E as <- <-|]); [..|destruct I].
  7: { clear G. replace (str_eqb (S_ "enclosure") (S_ "enclosure")) with true by reflexivity.
       set (w := x_get (S_ "rend") a). transitivity (mem w [S_ "box"; S_ "circle"; S_ "dbox"; S_ "tbox"] = true /\ w = v).
       - destruct (mem w _); [split; [intro H; injection H as ->; auto|intros (_ & ->); reflexivity]|]. cbn. split; [|intros (H & _)]; discriminate.
       - unfold mem. rewrite existsb_exists. split.
         + intros ((x & I & E) & W). apply str_eqb_eq in E. subst x. rewrite W in I. assert (V : v <> []) by (intros ->; vm_compute in I; intuition discriminate).
           split; [exact V|]. split; [apply (assoc_given _ _ _ V); exact W|intros _; exact I].
         + intros (V & E & I). apply (assoc_given _ _ _ V) in E. assert (W : w = v) by exact E. split; [|exact W]. rewrite W. exists v. split; [apply I; reflexivity|apply str_eqb_eq; reflexivity]. }
  all: rewrite <- G by discriminate; clear G; repeat match goal with |- context [str_eqb ?x ?y] => let b := eval vm_compute in (str_eqb x y) in change (str_eqb x y) with b end; cbv iota; try tauto.
  all: unfold S_ in *; cbn [list_ascii_of_string] in *; match goal with |- context [match ?x with [] => None | _ :: _ => _ end] => destruct x; tauto end.
Qed.
Lemma last_given_app attr rs a v : last_given attr (rs ++ [a]) v <-> given attr a v \/ (forall w, ~ given attr a w) /\ last_given attr rs v.
Proof.
  split.
  - intros (pre & x & post & E & G & F). destruct (exists_last (l := x :: post)) as (q & z & Q); [discriminate|].
    assert (E2 : rs = pre ++ q /\ a = z) by (rewrite Q, app_assoc in E; apply app_inj_tail in E; exact E). destruct E2 as (E2 & ->).
    destruct q as [|y q]; [injection Q as -> ->; left; exact G|]. injection Q as -> ->. right. apply Forall_app in F. destruct F as (F1 & F2).
    apply Forall_cons_iff in F2. split; [apply F2|]. exists pre, y, q. split; [exact E2|]. split; [exact G|exact F1].
  - intros [G|(N & pre & x & post & -> & G & F)].
    + exists rs, a, []. split; [reflexivity|]. split; [exact G|constructor].
    + exists pre, x, (post ++ [a]). split; [rewrite <- app_assoc; reflexivity|]. split; [exact G|]. apply Forall_app. split; [exact F|]. constructor; [exact N|constructor].
Qed.
Lemma styles_key k attr rs : In (k, attr) style_names -> forall v, d_get k (flat_map rend_style rs) = Some v <-> last_given attr rs v.
Proof.
  intro I. induction rs as [|a rs IH] using rev_ind; intro v.
  - split; [discriminate|]. intros (pre & x & post & E & _). destruct pre; discriminate.
  - rewrite flat_map_app. cbn [flat_map]. rewrite app_nil_r, d_get_app, last_given_app. pose proof (rend_style_key k attr a I) as R.
    destruct (d_get k (rend_style a)) as [w|].
    + assert (G : given attr a w) by (apply R; reflexivity). split; [intro H; injection H as <-; left; exact G|].
      intros [H|(N & _)]; [apply R in H; exact H|destruct (N w G)].
    + rewrite IH. assert (N : forall w, ~ given attr a w) by (intros w G; apply R in G; discriminate). split; [intro H; right; auto|]. intros [H|(_ & H)]; [destruct (N v H)|exact H].
Qed.
Lemma styles_other k rs : ~ In k (map fst style_names) -> d_get k (flat_map rend_style rs) = None.
Proof.
  intro N. induction rs as [|a rs IH]; [reflexivity|]. cbn [flat_map]. rewrite d_get_app, IH. unfold rend_style. cbv beta zeta. rewrite !d_get_app, !d_get_one, d_get_if.
  assert (K : forall key, In key (map fst style_names) -> str_eqb k key = false) by (intros key I; apply str_eqb_neq; intros <-; exact (N I)).
  rewrite !K; [reflexivity|..]; cbn; tauto.
Qed.

Section Spec.
Context (glyph_num glyph_name : str -> str).

(** The glyph of a `symbol` element: by number if there is one, else by name. *)
Definition glyph_shown (a : list (str * str)) (x : str) : Prop :=
  let smufl := (forall v, ~ given (S_ "glyph.auth") a v) \/ given (S_ "glyph.auth") a (S_ "smufl") in
  (exists n, smufl /\ given (S_ "glyph.num") a n /\ x = glyph_num n)
  \/ (exists n, smufl /\ (forall v, ~ given (S_ "glyph.num") a v) /\ given (S_ "glyph.name") a n /\ x = glyph_name n)
  \/ ((smufl -> forall v, ~ given (S_ "glyph.num") a v /\ ~ given (S_ "glyph.name") a v) /\ x = []).

(** The text an element shows, and the attributes of the `rend` elements in it, in
    the order of the document: its own text, then each sub-element and the text
    after it.  Line breaks and glyphs are characters; of alternatives one is shown;
    what is deleted is not shown. *)
Inductive shows : xml -> str -> list (list (str * str)) -> Prop :=
| sh_el : forall n a t ss tl x rs, shows_all ss x rs -> shows (El n a t ss tl) (keep t ++ x) rs
with shows_all : list xml -> str -> list (list (str * str)) -> Prop :=
| sa_nil : shows_all [] [] []
| sa_cons : forall c r x rs y qs, content c x rs -> shows_all r y qs -> shows_all (c :: r) ((x ++ keep (x_tail c)) ++ y) (rs ++ qs)
with content : xml -> str -> list (list (str * str)) -> Prop :=
| co_rend : forall c x rs, x_name c = S_ "rend" -> shows c x rs -> content c x (x_attrs c :: rs)
| co_break : forall c x rs, x_name c = S_ "lb" -> shows c x rs -> content c (newline :: x) rs
| co_symbol : forall c g x rs, x_name c = S_ "symbol" -> glyph_shown (x_attrs c) g -> shows c x rs -> content c (g ++ x) rs
| co_chosen : forall c s x rs, In (x_name c) alternatives -> chosen c s -> content s x rs -> content c x rs
| co_nothing : forall c, In (x_name c) alternatives -> (forall s, ~ chosen c s) -> content c [] []
| co_deleted : forall c, x_name c = S_ "del" -> content c [] []
| co_other : forall c x rs, ~ In (x_name c) alternatives ->
    ~ In (x_name c) [S_ "rend"; S_ "lb"; S_ "symbol"; S_ "del"] -> shows c x rs -> content c x rs.

Lemma given_get attr a : attr <> S_ "rend" -> forall v, given attr a v <-> v <> [] /\ x_get attr a = v.
Proof.
  intros N v. unfold given. split.
  - intros (V & E & _). split; [exact V|]. apply (assoc_given _ _ _ V). exact E.
  - intros (V & E). split; [exact V|]. split; [apply (assoc_given _ _ _ V); exact E|intro; contradiction].
Qed.
Lemma symbol_spec a x : glyph_shown a x <-> x = symbol_text glyph_num glyph_name a.
Proof.
  unfold glyph_shown, symbol_text. pose proof (given_get (S_ "glyph.auth") a ltac:(discriminate)) as GA. pose proof (given_get (S_ "glyph.num") a ltac:(discriminate)) as GN.
  pose proof (given_get (S_ "glyph.name") a ltac:(discriminate)) as GM. cbv zeta.
  assert (NG : forall k, k <> S_ "rend" -> ((forall v, ~ given k a v) <-> x_get k a = [])).
  { intros k K. split.
    - intro H. destruct (x_get k a) as [|c s] eqn:E; [reflexivity|]. exfalso. apply (H (c :: s)). apply given_get; [exact K|]. split; [discriminate|exact E].
    - intros H v G. apply given_get in G; [|exact K]. destruct G as (V & E). congruence. }
  assert (SM : ((forall v, ~ given (S_ "glyph.auth") a v) \/ given (S_ "glyph.auth") a (S_ "smufl"))
               <-> match x_get (S_ "glyph.auth") a with [] => true | _ => str_eqb (x_get (S_ "glyph.auth") a) (S_ "smufl") end = true).
  { rewrite NG, GA by discriminate. destruct (x_get (S_ "glyph.auth") a) as [|c s]; [tauto|]. rewrite str_eqb_eq. split; [intros [H|(_ & H)]; [discriminate|exact H]|]. intro H. right. split; [discriminate|exact H]. }
  set (b := match x_get (S_ "glyph.auth") a with [] => true | _ => _ end) in *. change (match x_get (S_ "glyph.auth") a with [] => true | _ :: _ => _ end) with b.
  set (P := (forall v, ~ given (S_ "glyph.auth") a v) \/ given (S_ "glyph.auth") a (S_ "smufl")) in *. clearbody P. pose proof (NG (S_ "glyph.num") ltac:(discriminate)) as NN. pose proof (NG (S_ "glyph.name") ltac:(discriminate)) as NM. clear NG GA.
  clearbody b. destruct b.
  - pose proof (proj2 SM eq_refl) as PT. destruct (x_get (S_ "glyph.num") a) as [|c s] eqn:E.
    + pose proof (proj2 NN eq_refl) as Z. destruct (x_get (S_ "glyph.name") a) as [|c s] eqn:F.
      * pose proof (proj2 NM eq_refl) as Z2. split.
        -- intros [(n & _ & G & _)|[(n & _ & _ & G & _)|(_ & H)]]; [destruct (Z _ G)|destruct (Z2 _ G)|exact H].
        -- intros ->. right. right. split; [intros _ v; split; [apply Z|apply Z2]|reflexivity].
      * assert (G : given (S_ "glyph.name") a (c :: s)) by (apply GM; split; [discriminate|reflexivity]). split.
        -- intros [(n & _ & H & _)|[(n & _ & _ & H & ->)|(H & _)]]; [destruct (Z _ H)|apply GM in H; destruct H as (_ & <-); reflexivity|destruct (H PT (c :: s)) as (_ & H2); destruct (H2 G)].
        -- intros ->. right. left. exists (c :: s). split; [exact PT|]. split; [exact Z|]. split; [exact G|reflexivity].
    + assert (G : given (S_ "glyph.num") a (c :: s)) by (apply GN; split; [discriminate|reflexivity]). split.
      * intros [(n & _ & H & ->)|[(n & _ & H & _)|(H & _)]]; [apply GN in H; destruct H as (_ & <-); reflexivity|destruct (H _ G)|destruct (H PT (c :: s)) as (H2 & _); destruct (H2 G)].
      * intros ->. left. exists (c :: s). split; [exact PT|]. split; [exact G|reflexivity].
  - assert (PF : ~ P) by (intro H; apply SM in H; discriminate).
    split; [|intros ->; right; right; split; [intro; contradiction|reflexivity]]. intros [(n & H & _)|[(n & H & _)|(_ & H)]]; [contradiction|contradiction|exact H].
Qed.

(** The sub-elements before the first one with a name. *)
Definition before_named (endAt : str) (ss pre : list xml) : Prop :=
  endAt = [] /\ pre = ss
  \/ endAt <> [] /\ none_named endAt ss /\ pre = ss
  \/ endAt <> [] /\ exists s post, ss = pre ++ s :: post /\ x_name s = endAt /\ none_named endAt pre.

(** What is read of an element: text and style. *)
Definition reads (endAt : str) (e : xml) (out : str * list (str * str)) : Prop :=
  exists pre x rs, before_named endAt (x_subs e) pre /\ shows_all pre x rs /\ fst out = keep (x_text e) ++ x
    /\ (forall k attr, In (k, attr) style_names -> forall v, d_get k (snd out) = Some v <-> last_given attr rs v)
    /\ (forall k, ~ In k (map fst style_names) -> d_get k (snd out) = None).

(** What the reader copes with: in editorial elements that are read through, only
    their own text; no text after alternatives; the alternative chosen is no
    special element itself; nothing deleted. *)
Inductive tidy : xml -> Prop :=
| ti_el : forall e, (forall c, In c (x_subs e) -> tidy_child c) -> tidy e
with tidy_child : xml -> Prop :=
| tc_choice : forall c, In (x_name c) alternatives -> keep (x_tail c) = [] ->
    (forall s, chosen c s -> keep (x_tail s) = [] /\ tidy s /\ ~ In (x_name s) (alternatives ++ [S_ "rend"; S_ "lb"; S_ "symbol"; S_ "del"])) -> tidy_child c
| tc_pass : forall c, In (x_name c) through -> Forall (fun s => keep (x_text s) = [] /\ keep (x_tail s) = []) (all_subs c) -> tidy c -> tidy_child c
| tc_other : forall c, ~ In (x_name c) (alternatives ++ through ++ [S_ "del"]) -> tidy c -> tidy_child c.

Lemma mem_In n l : mem n l = true <-> In n l.
Proof. unfold mem. rewrite existsb_exists. split; [intros (x & I & E); apply str_eqb_eq in E; subst; exact I|]. intro I. exists n. split; [exact I|]. apply str_eqb_eq. reflexivity. Qed.
Lemma mem_not n l : mem n l = false <-> ~ In n l.
Proof. rewrite <- mem_In. destruct (mem n l); split; congruence. Qed.
Lemma find_first_spec n ss : match find_first n ss with Some s => first_named n ss s | None => none_named n ss end.
Proof.
  unfold find_first. induction ss as [|x ss IH]; cbn [find]; [constructor|]. destruct (str_eqb (x_name x) n) eqn:E.
  - apply str_eqb_eq in E. exists [], ss. split; [reflexivity|]. split; [exact E|constructor].
  - apply str_eqb_neq in E. destruct (find _ ss) as [s|].
    + destruct IH as (a & b & -> & N & F). exists (x :: a), b. split; [reflexivity|]. split; [exact N|constructor; assumption].
    + constructor; assumption.
Qed.
Lemma first_named_In n ss s : first_named n ss s -> In s ss.
Proof. intros (a & b & -> & _). rewrite in_app_iff. right. left. reflexivity. Qed.
Lemma first_none n ss s : first_named n ss s -> none_named n ss -> False.
Proof. intros (a & b & -> & N & _) F. unfold none_named in F. rewrite Forall_forall in F. apply (F s); [rewrite in_app_iff; right; left; reflexivity|exact N]. Qed.
Lemma first_unique n ss s s' : first_named n ss s -> first_named n ss s' -> s = s'.
Proof.
  intros (a & b & -> & N & F) (c & d & E & M & G). revert a F E. induction c as [|x c IH]; intros a F E.
  - destruct a as [|y a]; [injection E as -> _; reflexivity|]. injection E as E1 E2. subst y. inversion F; contradiction.
  - destruct a as [|y a].
    + injection E as E1 E2. subst x. inversion G; contradiction.
    + injection E as E1 E2. apply Forall_cons_iff in F, G. exact (IH (proj2 G) a (proj2 F) E2).
Qed.
Lemma choose_spec c : In (x_name c) choosing -> match choose c with Some s => chosen c s /\ (forall s', chosen c s' -> s' = s) /\ In s (x_subs c) | None => forall s, ~ chosen c s end.
Proof.
  intros [E|[E|[]]]; unfold choose; rewrite <- E; cbn [str_eqb].
  - replace (str_eqb (S_ "app") (S_ "app")) with true by reflexivity.
    pose proof (find_first_spec (S_ "lem") (x_subs c)) as L. destruct (find_first (S_ "lem") (x_subs c)) as [s|].
    + split; [left; split; [auto|left; exact L]|]. split; [|exact (first_named_In _ _ _ L)].
      intros s' [(_ & [H|(N & _)])|(Q & _)]; [exact (first_unique _ _ _ _ H L)|destruct (first_none _ _ _ L N)|rewrite <- E in Q; discriminate].
    + pose proof (find_first_spec (S_ "rdg") (x_subs c)) as R. destruct (find_first (S_ "rdg") (x_subs c)) as [s|].
      * split; [left; split; [auto|right; auto]|]. split; [|exact (first_named_In _ _ _ R)].
        intros s' [(_ & [H|(N & H)])|(Q & _)]; [destruct (first_none _ _ _ H L)|exact (first_unique _ _ _ _ H R)|rewrite <- E in Q; discriminate].
      * intros s [(_ & [H|(N & H)])|(Q & _)]; [exact (first_none _ _ _ H L)|exact (first_none _ _ _ H R)|rewrite <- E in Q; discriminate].
  - replace (str_eqb (S_ "choice") (S_ "app")) with false by reflexivity.
    pose proof (find_first_spec (S_ "corr") (x_subs c)) as L. destruct (find_first (S_ "corr") (x_subs c)) as [s|].
    + split; [right; split; [auto|left; exact L]|]. split; [|exact (first_named_In _ _ _ L)].
      intros s' [(Q & _)|(_ & [H|[(N & _)|(N & _)]])]; [rewrite <- E in Q; discriminate|exact (first_unique _ _ _ _ H L)|destruct (first_none _ _ _ L N)..].
    + pose proof (find_first_spec (S_ "reg") (x_subs c)) as R. destruct (find_first (S_ "reg") (x_subs c)) as [s|].
      * split; [right; split; [auto|right; left; auto]|]. split; [|exact (first_named_In _ _ _ R)].
        intros s' [(Q & _)|(_ & [H|[(N & H)|(N & M & _)]])]; [rewrite <- E in Q; discriminate|destruct (first_none _ _ _ H L)|exact (first_unique _ _ _ _ H R)|destruct (first_none _ _ _ R M)].
      * destruct (x_subs c) as [|s ss] eqn:SS; cbn [hd_error].
        -- intros s [(Q & _)|(_ & [H|[(N & H)|(N & M & r & H)]])]; [rewrite <- E in Q; discriminate| | |rewrite SS in H; discriminate];
             apply first_named_In in H; rewrite SS in H; destruct H.
        -- split; [right; split; [auto|right; right; rewrite SS; split; [exact L|split; [exact R|exists ss; reflexivity]]]|]. split; [|left; reflexivity].
           intros s' [(Q & _)|(_ & [H|[(N & H)|(N & M & r & H)]])]; rewrite ?SS in *; [rewrite <- E in Q; discriminate|destruct (first_none _ _ _ H L)|destruct (first_none _ _ _ H R)|].
           injection H as -> _. reflexivity.
Qed.

Lemma depth_sub e s f : In s (x_subs e) -> depth e <= S f -> depth s <= f.
Proof.
  destruct e as [n a t ss tl]. cbn [x_subs depth]. intros I D. apply le_S_n in D. clear n a t tl. induction ss as [|x ss IH]; [destruct I|].
  cbn [map fold_right] in D. destruct I as [->|I]; [lia|]. apply IH; [exact I|lia].
Qed.
Lemma until_spec endAt : forall ss, before_named endAt ss (until endAt ss).
Proof.
  destruct endAt as [|c0 e0] eqn:E.
  - intro ss. left. split; [reflexivity|]. destruct ss; reflexivity.
  - rewrite <- E. assert (NE : endAt <> []) by (rewrite E; discriminate). induction ss as [|s ss IH].
    + right. left. split; [exact NE|]. split; [constructor|reflexivity].
    + assert (U : until endAt (s :: ss) = if str_eqb (x_name s) endAt then [] else s :: until endAt ss) by (rewrite E; reflexivity).
      rewrite U. destruct (str_eqb (x_name s) endAt) eqn:Q.
      * apply str_eqb_eq in Q. right. right. split; [exact NE|]. exists s, ss. split; [reflexivity|]. split; [exact Q|constructor].
      * apply str_eqb_neq in Q. destruct IH as [(K & _)|[(_ & N & P)|(_ & x & post & S1 & S2 & S3)]]; [contradiction| |].
        -- right. left. split; [exact NE|]. split; [constructor; assumption|]. rewrite P. reflexivity.
        -- right. right. split; [exact NE|]. exists x, post. split; [rewrite S1 at 1; reflexivity|]. split; [exact S2|constructor; assumption].
Qed.
Lemma until_in endAt : forall ss c, In c (until endAt ss) -> In c ss.
Proof.
  induction ss as [|s ss IH]; intros c H; [exact H|]. cbn [until] in H. destruct endAt; [exact H|]. destruct (str_eqb _ _); [destruct H|].
  destruct H as [->|H]; [left; reflexivity|right; apply IH, H].
Qed.

(** What the code does with one sub-element. *)
Definition child_of (f : nat) (c : xml) : str * list (str * str) :=
  let n := x_name c in
  let '(before, style, el) :=
    if str_eqb n (S_ "rend") then ([], rend_style (x_attrs c), Some c)
    else if mem n choosing then ([], [], choose c)
    else if mem n passthru then (flat_map (fun s => keep (x_text s) ++ keep (x_tail s)) (all_subs c), [], Some c)
    else if str_eqb n (S_ "lb") then ([newline], [], Some c)
    else if str_eqb n (S_ "symbol") then (symbol_text glyph_num glyph_name (x_attrs c), [], Some c)
    else ([], [], Some c) in
  match el with
  | None => ([], [])
  | Some s => let (t, st) := textFromElem glyph_num glyph_name f [] s in (before ++ t ++ keep (x_tail s), style ++ st)
  end.
Lemma text_step f endAt e : textFromElem glyph_num glyph_name (S f) endAt e
  = (keep (x_text e) ++ flat_map fst (map (child_of f) (until endAt (x_subs e))), flat_map snd (map (child_of f) (until endAt (x_subs e)))).
Proof. reflexivity. Qed.

Lemma text_read : forall f e endAt, depth e <= f -> tidy e ->
  exists x rs, shows_all (until endAt (x_subs e)) x rs
    /\ textFromElem glyph_num glyph_name f endAt e = (keep (x_text e) ++ x, flat_map rend_style rs).
Proof.
  induction f as [|f IH]; intros e endAt D T; [destruct e; cbn in D; lia|].
  rewrite text_step. destruct T as [e T].
  assert (K : forall c, In c (until endAt (x_subs e)) -> exists x rs, content c x rs /\ child_of f c = (x ++ keep (x_tail c), flat_map rend_style rs)).
  { intros c I. apply until_in in I. pose proof (depth_sub e c f I D) as DC. specialize (T c I).
    assert (SH : tidy c -> exists x rs, shows c x rs /\ textFromElem glyph_num glyph_name f [] c = (x, flat_map rend_style rs)).
    { intro TC. destruct (IH c [] DC TC) as (x & rs & S1 & S2). exists (keep (x_text c) ++ x), rs. split; [|exact S2].
      assert (U : until [] (x_subs c) = x_subs c) by (destruct (x_subs c); reflexivity). rewrite U in S1.
      destruct c. apply sh_el. exact S1. }
    unfold child_of. inversion T as [? C TL CH|? P B TC|? N TC]; subst; change alternatives with choosing in *; change through with passthru in *.
    - pose proof (proj2 (mem_In _ _) C) as M.
      assert (R : str_eqb (x_name c) (S_ "rend") = false) by (destruct C as [<-|[<-|[]]]; reflexivity). rewrite R, M.
      pose proof (choose_spec c C) as CS. destruct (choose c) as [s|].
      + destruct CS as (CS & _ & IN). destruct (CH s CS) as (TS & TT & NS).
        assert (DS : depth s <= f) by (pose proof (depth_sub c s (pred f) IN) as Q; destruct f; [destruct c; cbn in DC; lia|]; cbn [pred] in Q; specialize (Q DC); lia).
        destruct (IH s [] DS TT) as (x & rs & S1 & S2). exists (keep (x_text s) ++ x), rs. rewrite S2, TS, TL. split; [|reflexivity].
        apply (co_chosen c s); [exact C|exact CS|]. rewrite in_app_iff in NS. apply co_other; [tauto|tauto|].
        assert (U : until [] (x_subs s) = x_subs s) by (destruct (x_subs s); reflexivity). rewrite U in S1. destruct s. apply sh_el. exact S1.
      + exists [], []. rewrite TL. split; [apply co_nothing; assumption|reflexivity].
    - destruct (SH TC) as (x & rs & S1 & S2). pose proof (proj2 (mem_In _ _) P) as M.
      assert (Q : str_eqb (x_name c) (S_ "rend") = false /\ mem (x_name c) choosing = false /\ ~ In (x_name c) [S_ "rend"; S_ "lb"; S_ "symbol"; S_ "del"]).
      { unfold passthru in P. cbn [In] in P. repeat destruct P as [<-|P]; try (split; [reflexivity|]; split; [reflexivity|]; vm_compute; intuition discriminate). destruct P. }
      destruct Q as (Q1 & Q2 & Q3). rewrite Q1, Q2, M, S2.
      assert (Z : flat_map (fun s => keep (x_text s) ++ keep (x_tail s)) (all_subs c) = []).
      { clear - B. induction B as [|s l (A1 & A2) B IHB]; [reflexivity|]. cbn [flat_map]. rewrite A1, A2. exact IHB. }
      rewrite Z. exists x, rs. split; [|reflexivity]. apply co_other; [apply mem_not; exact Q2|exact Q3|exact S1].
    - destruct (SH TC) as (x & rs & S1 & S2). rewrite !in_app_iff in N.
      assert (M1 : mem (x_name c) choosing = false) by (apply mem_not; tauto). assert (M2 : mem (x_name c) passthru = false) by (apply mem_not; tauto).
      destruct (str_eqb (x_name c) (S_ "rend")) eqn:E1; [apply str_eqb_eq in E1|apply str_eqb_neq in E1].
      { rewrite S2. exists x, (x_attrs c :: rs). split; [apply co_rend; assumption|reflexivity]. }
      rewrite M1, M2. destruct (str_eqb (x_name c) (S_ "lb")) eqn:E2; [apply str_eqb_eq in E2|apply str_eqb_neq in E2].
      { rewrite S2. exists (newline :: x), rs. split; [apply co_break; assumption|reflexivity]. }
      destruct (str_eqb (x_name c) (S_ "symbol")) eqn:E3; [apply str_eqb_eq in E3|apply str_eqb_neq in E3].
      { rewrite S2. exists (symbol_text glyph_num glyph_name (x_attrs c) ++ x), rs. split; [apply co_symbol; [exact E3|apply symbol_spec; reflexivity|exact S1]|]. rewrite <- app_assoc. reflexivity. }
      rewrite S2. exists x, rs. split; [|reflexivity]. apply co_other; [tauto| |exact S1]. cbn [In] in *. intuition congruence. }
  clear T D. induction (until endAt (x_subs e)) as [|c l IHl].
  - exists [], []. split; [constructor|reflexivity].
  - destruct (K c (or_introl eq_refl)) as (x & rs & C1 & C2). destruct IHl as (y & qs & A1 & A2); [intros; apply K; right; assumption|].
    exists ((x ++ keep (x_tail c)) ++ y), (rs ++ qs). split; [constructor; assumption|].
    injection A2 as A3 A4. apply app_inv_head in A3. cbn [map flat_map]. rewrite A3, A4, C2. cbn [fst snd]. rewrite flat_map_app. reflexivity.
Qed.
End Spec.

Theorem C113_text_partial : forall glyph_num glyph_name endAt e, tidy e ->
  reads glyph_num glyph_name endAt e (text_of glyph_num glyph_name endAt e).
Proof.
  intros gn gm endAt e T. destruct (text_read gn gm (depth e) e endAt (le_n _) T) as (x & rs & A & B).
  exists (until endAt (x_subs e)), x, rs. split; [apply until_spec|]. split; [exact A|]. unfold text_of. rewrite B. split; [reflexivity|]. split; [intros k attr I; apply styles_key; exact I|intros k N; apply styles_other; exact N].
Qed.
Print Assumptions C113_text_partial.

(** Only white space that begins with a line end is dropped; any other text is kept
    as it is. *)
Theorem C113_layout : forall t, (layout t -> keep t = []) /\ (~ layout t -> keep t = t).
Proof.
  intro t. unfold keep, layout. destruct t as [|c r]; [split; reflexivity|]. destruct (Ascii.eqb c newline) eqn:E; cbn [andb].
  - apply Ascii.eqb_eq in E. subst c. destruct (forallb is_space (newline :: r)) eqn:F.
    + rewrite forallb_forall in F. split; [reflexivity|]. intro H. exfalso. apply H. split; [exists r; reflexivity|exact F].
    + split; [|reflexivity]. intros (_ & A). apply forallb_forall in A. congruence.
  - apply Ascii.eqb_neq in E. split; [|reflexivity]. intros ((q & Q) & _). congruence.
Qed.
Print Assumptions C113_layout.

(** The text shown is unique, so the theorem determines it. *)
Scheme shows_ind2 := Induction for shows Sort Prop
with shows_all_ind2 := Induction for shows_all Sort Prop
with content_ind2 := Induction for content Sort Prop.
Combined Scheme shows_mut from shows_ind2, shows_all_ind2, content_ind2.

Lemma chosen_unique c s s' : In (x_name c) choosing -> chosen c s -> chosen c s' -> s = s'.
Proof. intros I A B. pose proof (choose_spec c I) as K. destruct (choose c) as [z|]; [|destruct (K s A)]. destruct K as (_ & U & _). rewrite (U s A), (U s' B). reflexivity. Qed.
Theorem C113_unique : forall glyph_num glyph_name,
  (forall e x rs, shows glyph_num glyph_name e x rs -> forall y qs, shows glyph_num glyph_name e y qs -> x = y /\ rs = qs)
  /\ (forall l x rs, shows_all glyph_num glyph_name l x rs -> forall y qs, shows_all glyph_num glyph_name l y qs -> x = y /\ rs = qs)
  /\ (forall c x rs, content glyph_num glyph_name c x rs -> forall y qs, content glyph_num glyph_name c y qs -> x = y /\ rs = qs).
Proof.
  intros gn gm. apply shows_mut.
  - intros n a t ss tl x rs _ IH y qs H. inversion H; subst. match goal with K : shows_all _ _ ss _ _ |- _ => destruct (IH _ _ K) as (-> & ->) end. auto.
  - intros y qs H. inversion H; auto.
  - intros c r x rs y qs _ IH1 _ IH2 y' qs' H. inversion H; subst.
    match goal with K : content _ _ c _ _ |- _ => destruct (IH1 _ _ K) as (-> & ->) end.
    match goal with K : shows_all _ _ r _ _ |- _ => destruct (IH2 _ _ K) as (-> & ->) end. auto.
  - intros c x rs N _ IH y qs H. inversion H as [? ? ? M K|? ? ? M K|? ? ? ? M GS K|? ? ? ? M C K|? M C|? M|? ? ? M NO K]; subst;
      try (exfalso; rewrite N in M; vm_compute in M; intuition discriminate).
    + destruct (IH _ _ K) as (-> & ->). auto.
    + exfalso. apply NO. rewrite N. left; reflexivity.
  - intros c x rs N _ IH y qs H. inversion H as [? ? ? M K|? ? ? M K|? ? ? ? M GS K|? ? ? ? M C K|? M C|? M|? ? ? M NO K]; subst;
      try (exfalso; rewrite N in M; vm_compute in M; intuition discriminate).
    + destruct (IH _ _ K) as (-> & ->). auto.
    + exfalso. apply NO. rewrite N. right; left; reflexivity.
  - intros c g x rs N GG _ IH y qs H. inversion H as [? ? ? M K|? ? ? M K|? ? ? ? M GS K|? ? ? ? M C K|? M C|? M|? ? ? M NO K]; subst;
      try (exfalso; rewrite N in M; vm_compute in M; intuition discriminate).
    + destruct (IH _ _ K) as (-> & ->). apply symbol_spec in GG, GS. rewrite GG, GS. auto.
    + exfalso. apply NO. rewrite N. right; right; left; reflexivity.
  - intros c s x rs I CH _ IH y qs H. inversion H as [? ? ? M K|? ? ? M K|? ? ? ? M GS K|? ? ? ? M C K|? M C|? M|? ? ? M NO2 K]; subst;
      try (exfalso; rewrite M in I; vm_compute in I; intuition discriminate).
    + rewrite <- (chosen_unique c s _ I CH C) in K. exact (IH _ _ K).
    + destruct (C s CH).
    + contradiction.
  - intros c I NC y qs H. inversion H as [? ? ? M K|? ? ? M K|? ? ? ? M GS K|? ? ? ? M C K|? M C|? M|? ? ? M NO2 K]; subst;
      try (exfalso; rewrite M in I; vm_compute in I; intuition discriminate); auto; [destruct (NC _ C)|contradiction].
  - intros c N y qs H. inversion H as [? ? ? M K|? ? ? M K|? ? ? ? M GS K|? ? ? ? M C K|? M C|? M|? ? ? M NO K]; subst;
      try (exfalso; rewrite N in M; vm_compute in M; intuition discriminate); auto.
    exfalso. apply NO. rewrite N. right. right. right. left. reflexivity.
  - intros c x rs NC NO _ IH y qs H. inversion H as [? ? ? M K|? ? ? M K|? ? ? ? M GS K|? ? ? ? M C K|? M C|? M|? ? ? M NO2 K]; subst; try contradiction;
      try (exfalso; apply NO; rewrite M; vm_compute; tauto).
    exact (IH _ _ K).
Qed.
Print Assumptions C113_unique.

(** A direction with layout of the file, a correction chosen, a line break, a glyph
    and two styles. *)
Definition el (n : string) (t : string) (ss : list xml) (tl : string) : xml := El (S_ n) [] (S_ t) ss (S_ tl).
Definition nl : str := [newline; " "%char].
Example C113_nonvacuous :
  let e := El (S_ "dir") [] nl
     [El (S_ "rend") [(S_ "fontstyle", S_ "italic"); (S_ "color", S_ "red")] (S_ "poco ") [el "supplied" "a" [] " "; el "lb" "" [] "poco"] nl;
      El (S_ "choice") [] nl [El (S_ "sic") [] (S_ "ril.") [] nl; El (S_ "corr") [] (S_ "rit.") [] nl] nl;
      El (S_ "rend") [(S_ "fontstyle", S_ "normal")] [] [El (S_ "symbol") [(S_ "glyph.num", S_ "U+0041")] [] [] []] (S_ "!")] (S_ "ignored") in
  tidy e
  /\ text_of (fun _ => S_ "A") (fun _ => []) [] e
     = (S_ "poco a " ++ newline :: S_ "pocorit.A!", [(S_ "fontStyle", S_ "italic"); (S_ "color", S_ "red"); (S_ "fontStyle", S_ "normal")])
  /\ d_get (S_ "fontStyle") (snd (text_of (fun _ => S_ "A") (fun _ => []) [] e)) = Some (S_ "normal")
  /\ text_of (fun _ => S_ "A") (fun _ => []) (S_ "choice") e = (S_ "poco a " ++ newline :: S_ "poco", [(S_ "fontStyle", S_ "italic"); (S_ "color", S_ "red")]).
Proof.
  cbv zeta. split; [|split; [vm_compute; reflexivity|split; vm_compute; reflexivity]].
  assert (O : forall n a t tl, ~ In n (choosing ++ passthru ++ [S_ "del"]) -> tidy_child (El n a t [] tl)).
  { intros n a t tl N. apply tc_other; [exact N|]. constructor. intros c []. }
  assert (P : forall n a t tl, In n passthru -> tidy_child (El n a t [] tl)).
  { intros n a t tl N. apply tc_pass; [exact N|constructor|]. constructor. intros c []. }
  constructor. intros c [<-|[<-|[<-|[]]]].
  - apply tc_other; [vm_compute; intuition discriminate|]. constructor. intros c [<-|[<-|[]]]; [apply P; vm_compute; tauto|apply O; vm_compute; intuition discriminate].
  - apply tc_choice; [vm_compute; tauto|vm_compute; reflexivity|]. intros s CH.
    assert (C : chosen (El (S_ "choice") [] nl [El (S_ "sic") [] (S_ "ril.") [] nl; El (S_ "corr") [] (S_ "rit.") [] nl] nl) (El (S_ "corr") [] (S_ "rit.") [] nl)).
    { right. split; [reflexivity|]. left. exists [El (S_ "sic") [] (S_ "ril.") [] nl], []. split; [reflexivity|]. split; [reflexivity|]. constructor; [discriminate|constructor]. }
    assert (U : s = El (S_ "corr") [] (S_ "rit.") [] nl) by (refine (chosen_unique _ s _ _ CH C); right; left; reflexivity). rewrite U. split; [vm_compute; reflexivity|]. split; [constructor; intros c []|vm_compute; intuition discriminate].
  - apply tc_other; [vm_compute; intuition discriminate|]. constructor. intros c [<-|[]]. apply O. vm_compute. intuition discriminate.
Qed.

(** ** Where it fails *)

Ltac done_not := vm_compute; intuition discriminate.
Lemma shows_leaf gn gm n a t tl : shows gn gm (El n a t [] tl) (keep t ++ []) [].
Proof. apply sh_el. constructor. Qed.

(** Text after an editorial choice is lost. *)
Theorem C113_tail_refuted : exists e, forall gn gm,
  shows gn gm e (S_ "poco forte subito") [] /\ text_of gn gm [] e = (S_ "poco forte", []).
Proof.
  exists (el "dir" "poco " [el "choice" "" [el "sic" "frote" [] ""; el "corr" "forte" [] ""] " subito"] ""). intros gn gm. split; [|vm_compute; reflexivity].
  change (S_ "poco forte subito") with (keep (S_ "poco ") ++ ((keep (S_ "forte") ++ []) ++ keep (S_ " subito")) ++ []).
  apply sh_el. change (@nil (list (str * str))) with (@nil (list (str * str)) ++ []). apply (sa_cons gn gm (el "choice" "" [el "sic" "frote" [] ""; el "corr" "forte" [] ""] " subito") []); [|constructor].
  apply (co_chosen _ _ _ (el "corr" "forte" [] "")); [right; left; reflexivity| |apply co_other; [done_not|done_not|apply shows_leaf]].
  right. split; [reflexivity|]. left. exists [el "sic" "frote" [] ""], []. split; [reflexivity|]. split; [reflexivity|]. constructor; [discriminate|constructor].
Qed.
Print Assumptions C113_tail_refuted.

(** Text inside an element inside an editorial element is read twice, the first
    time before the text that goes before it. *)
Theorem C113_twice_refuted : exists e, forall gn gm,
  shows gn gm e (S_ "con moto") [[]] /\ text_of gn gm [] e = (S_ "motocon moto", []).
Proof.
  exists (el "dir" "" [el "supplied" "con " [el "rend" "moto" [] ""] ""] ""). intros gn gm. split; [|vm_compute; reflexivity].
  change (S_ "con moto") with (keep (S_ "") ++ ((keep (S_ "con ") ++ ((keep (S_ "moto") ++ []) ++ keep []) ++ []) ++ keep []) ++ []).
  apply sh_el. change [@nil (str * str)] with ([@nil (str * str)] ++ []). apply (sa_cons gn gm (el "supplied" "con " [el "rend" "moto" [] ""] "") []); [|constructor].
  apply co_other; [done_not|done_not|]. apply sh_el. change [@nil (str * str)] with ([@nil (str * str)] ++ []).
  apply (sa_cons gn gm (el "rend" "moto" [] "") []); [|constructor]. apply (co_rend gn gm (el "rend" "moto" [] "")); [reflexivity|apply shows_leaf].
Qed.
Print Assumptions C113_twice_refuted.

(** Deleted text is read. *)
Theorem C113_deleted_refuted : exists e, forall gn gm,
  shows gn gm e (S_ "piano") [] /\ text_of gn gm [] e = (S_ "fortepiano", []).
Proof.
  exists (el "dir" "" [el "del" "forte" [] ""; el "add" "piano" [] ""] ""). intros gn gm. split; [|vm_compute; reflexivity].
  change (S_ "piano") with (keep [] ++ ([] ++ keep []) ++ ((keep (S_ "piano") ++ []) ++ keep []) ++ []).
  apply sh_el. change (@nil (list (str * str))) with (@nil (list (str * str)) ++ [] ++ []).
  apply (sa_cons gn gm (el "del" "forte" [] "")); [apply co_deleted; reflexivity|]. apply (sa_cons gn gm (el "add" "piano" [] "")); [|constructor].
  apply co_other; [done_not|done_not|apply shows_leaf].
Qed.
Print Assumptions C113_deleted_refuted.

(** The style is said to be the first one met; it is the last. *)
Theorem C113_first_style_refuted : exists e, forall gn gm,
  exists x, shows gn gm e x [[(S_ "fontstyle", S_ "italic")]; [(S_ "fontstyle", S_ "normal")]]
    /\ d_get (S_ "fontStyle") (snd (text_of gn gm [] e)) = Some (S_ "normal").
Proof.
  exists (el "dir" "" [El (S_ "rend") [(S_ "fontstyle", S_ "italic")] (S_ "dolce") [] []; El (S_ "rend") [(S_ "fontstyle", S_ "normal")] (S_ "(sul G)") [] []] "").
  intros gn gm. eexists. split; [|vm_compute; reflexivity].
  apply sh_el. change [[(S_ "fontstyle", S_ "italic")]; [(S_ "fontstyle", S_ "normal")]] with ([[(S_ "fontstyle", S_ "italic")]] ++ [[(S_ "fontstyle", S_ "normal")]] ++ []).
  apply sa_cons; [exact (co_rend gn gm (El (S_ "rend") [(S_ "fontstyle", S_ "italic")] (S_ "dolce") [] []) _ _ eq_refl (shows_leaf _ _ _ _ _ _))|].
  apply sa_cons; [exact (co_rend gn gm (El (S_ "rend") [(S_ "fontstyle", S_ "normal")] (S_ "(sul G)") [] []) _ _ eq_refl (shows_leaf _ _ _ _ _ _))|constructor].
Qed.
Print Assumptions C113_first_style_refuted.
