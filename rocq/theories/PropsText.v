(** Property theorems C10-C14: the parameter store, layout parameters, lines and
    files as text. *)
From Verif Require Import PyStr PyStrProofs HashModel HashProofs LayoutModel LayoutProofs TextModel TextProofs.

(** C10.  Full statement: after any history of calls, an entry holds the value
    of the last set not followed by a delete, and calls on other entries do not
    matter.  Which entry the arguments of a call name is [addresses], the
    documented rule.  False for colon-delimited texts of four or more parts,
    whose tail is ignored: *)
Theorem C10_last_write_wins_refuted :
  exists k1 k2 : str, k1 <> k2 /\
    exists p, hrun (V := nat) (T := nat) [HSet [k1] 1; HSet [k2] 2] [] = Some p /\
      getValue [k1] p = Some (Some 2).
Proof.
  exists (S_ "a:b:c"), (S_ "a:b:c:d"). split; [discriminate|].
  eexists. split; vm_compute; reflexivity.
Qed.
Print Assumptions C10_last_write_wins_refuted.

(** Everything else (missing: texts of four or more colon-delimited parts). *)
Theorem C10_last_write_wins_partial :
  forall (V T : Type) (pre post : list (hop V T)) args v a q,
    Forall (fun o => names_entry (op_args o)) (pre ++ HSet args v :: post) ->
    addresses args a -> (forall o, In o post -> ~ writes a o) -> addresses q a ->
    exists p, hrun (pre ++ HSet args v :: post) [] = Some p /\
      getValue q p = Some (Some v) /\ isDefined q p = Some true.
Proof. intros. eapply last_write_wins; eassumption. Qed.
Print Assumptions C10_last_write_wins_partial.

Theorem C10_unset_is_absent_partial :
  forall (V T : Type) (pre post : list (hop V T)) a q,
    (pre = [] \/ exists pre' args, pre = pre' ++ [HDel args] /\ addresses args a) ->
    Forall (fun o => names_entry (op_args o)) (pre ++ post) ->
    (forall o, In o post -> ~ sets a o) -> addresses q a ->
    exists p, hrun (pre ++ post) [] = Some p /\
      getValue q p = Some None /\ isDefined q p = Some false /\ getOrigin q p = Some None.
Proof. intros. eapply never_set; eassumption. Qed.
Print Assumptions C10_unset_is_absent_partial.

Theorem C10_other_entries_unchanged_partial :
  forall (V T : Type) (ops : list (hop V T)) o a q,
    Forall (fun o => names_entry (op_args o)) (ops ++ [o]) ->
    ~ addresses (op_args o) a -> addresses q a ->
    exists p p', hrun ops [] = Some p /\ hrun (ops ++ [o]) [] = Some p' /\
      getValue q p' = getValue q p /\ isDefined q p' = isDefined q p /\ getOrigin q p' = getOrigin q p.
Proof. intros. eapply other_entries_unchanged; eassumption. Qed.
Print Assumptions C10_other_entries_unchanged_partial.

Theorem C10_origin_partial :
  forall (V T : Type) (pre mid post : list (hop V T)) args v oargs t a q,
    Forall (fun o => names_entry (op_args o)) (pre ++ HSet args v :: mid ++ HOrigin oargs t :: post) ->
    addresses args a -> addresses oargs a -> addresses q a ->
    (forall o, In o mid -> ~ writes a o) -> (forall o, In o post -> ~ writes a o /\ ~ marks a o) ->
    exists p, hrun (pre ++ HSet args v :: mid ++ HOrigin oargs t :: post) [] = Some p /\
      getOrigin q p = Some (Some t) /\ getValue q p = Some (Some v).
Proof. intros. eapply origin_last; eassumption. Qed.
Print Assumptions C10_origin_partial.

Example C10_nonvacuous :
  let ops := [HSet [S_ "LO:N:vis"] 1; HSet [S_ "vis"] 7; HDel [S_ "vis"]; HSet [S_ "LO"; S_ "N"; S_ "vis"] 2;
              HSet [S_ "auto"; S_ "id"] 3] in
  Forall (fun o => names_entry (op_args (V := nat) (T := nat) o)) ops /\
  addresses [S_ "LO:N:vis"] (S_ "LO", S_ "N", S_ "vis") /\
  option_map (getValue [S_ "LO:N:vis"]) (hrun (V := nat) (T := nat) ops []) = Some (Some (Some 2)).
Proof.
  assert (A : addresses [S_ "LO:N:vis"] (S_ "LO", S_ "N", S_ "vis")).
  { apply (Addr_two (S_ "LO") (S_ "N") (S_ "vis")); try reflexivity. discriminate. }
  split; [|split; [exact A|vm_compute; reflexivity]].
  repeat apply Forall_cons; try apply Forall_nil; cbn [op_args].
  - eexists; exact A.
  - eexists. apply Addr_plain. reflexivity.
  - eexists. apply Addr_plain. reflexivity.
  - eexists. apply Addr3. discriminate.
  - eexists. apply Addr2. discriminate.
Qed.

(** C11.  Listings and counts are exact, overall ... *)
Theorem C11_listing_exact : forall (V T : Type) (ops : list (hop V T)),
  Forall (fun o => names_entry (op_args o)) ops ->
  exists p entries, hrun ops [] = Some p /\ NoDup entries /\
    (forall q a, addresses q a -> (In a entries <-> isDefined q p = Some true)) /\
    getKeys None None p = map show_addr entries /\
    getParameterCount None None p = length entries /\
    (hasParameters None None p = true <-> entries <> []).
Proof. intros. apply listing_exact; assumption. Qed.
Print Assumptions C11_listing_exact.

(** ... in one namespace ... *)
Theorem C11_listing_exact_namespace : forall (V T : Type) (ops : list (hop V T)) n1,
  Forall (fun o => names_entry (op_args o)) ops ->
  exists p entries, hrun ops [] = Some p /\ NoDup entries /\
    (forall a, In a entries <-> fst (fst a) = n1 /\ find_param p a <> None) /\
    getKeys (Some n1) None p = map show_addr2 entries /\
    getParameterCount (Some n1) None p = length entries /\
    (hasParameters (Some n1) None p = true <-> entries <> []).
Proof. intros. apply listing_exact_ns; assumption. Qed.
Print Assumptions C11_listing_exact_namespace.

(** ... and in a pair of namespaces. *)
Theorem C11_listing_exact_pair : forall (V T : Type) (ops : list (hop V T)) n1 n2,
  Forall (fun o => names_entry (op_args o)) ops ->
  exists p, hrun ops [] = Some p /\ NoDup (getKeys (Some n1) (Some n2) p) /\
    (forall k, In k (getKeys (Some n1) (Some n2) p) <-> find_param p (n1, n2, k) <> None) /\
    getParameterCount (Some n1) (Some n2) p = length (getKeys (Some n1) (Some n2) p) /\
    (hasParameters (Some n1) (Some n2) p = true <-> getKeys (Some n1) (Some n2) p <> []).
Proof. intros. apply listing_exact_ns2; assumption. Qed.
Print Assumptions C11_listing_exact_pair.

Example C11_nonvacuous :
  option_map (getKeys None None)
    (hrun (V := nat) (T := nat) [HSet [S_ "a"] 1; HSet [S_ "b:c"] 2; HDel [S_ "a"]; HSet [S_ "x:y:z"] 1] [])
  = Some [S_ ":b:c"; S_ "x:y:z"].
Proof. vm_compute. reflexivity. Qed.

(** The documented shorthand "NS1:NS2" as a single argument does not work: the
    entry is there, and the listing of its namespace pair is empty. *)
Theorem C11_colon_namespace_refuted :
  exists p, hrun (V := nat) (T := nat) [HSet [S_ "LO:N:vis"] 1] [] = Some p /\
    getKeys (Some (S_ "LO")) (Some (S_ "N")) p = [S_ "vis"] /\
    getKeys (Some (S_ "LO:N")) None p = [] /\
    hasParameters (Some (S_ "LO:N")) None p = false /\ getParameterCount (Some (S_ "LO:N")) None p = 0.
Proof. eexists. split; [vm_compute; reflexivity|]. repeat split; vm_compute; reflexivity. Qed.
Print Assumptions C11_colon_namespace_refuted.

(** C12.  Full statement: text written into a layout parameter comes back with
    its colons and equals signs.  As far as the parsers alone are concerned it is
    false: the parameter set keeps the escape ... *)
Theorem C12_param_set_colon_refuted :
  exists content,
    ps_params (readParamString empty_paramset (textLayoutParameter [] content)) = [(S_ "t", S_ "a&colon;b")]
    /\ content = S_ "a:b".
Proof. eexists. split; [|reflexivity]. vm_compute. reflexivity. Qed.
Print Assumptions C12_param_set_colon_refuted.

(** ... and the global layout lines leave a stray semicolon, and cut the value
    at a second equals sign. *)
Theorem C12_line_parameters_refuted :
  lineParameters (S_ "LO:TX:t=" ++ cleanSpacesAndColons (S_ "a:b"))
    = [([S_ "LO"; S_ "TX"; S_ "t"], S_ "a:;b"); ([S_ "global"], S_ "true")] /\
  lineParameters (S_ "LO:TX:t=" ++ cleanSpacesAndColons (S_ "a=b"))
    = [([S_ "LO"; S_ "TX"; S_ "t"], S_ "a"); ([S_ "global"], S_ "true")].
Proof. split; vm_compute; reflexivity. Qed.
Print Assumptions C12_line_parameters_refuted.

(** The whole import path of a text direction does recover the text: colons,
    equals signs, newlines and non-breaking spaces, with any style parameters
    beside it.  Missing: texts with an ampersand, a literal backslash-n, tabs,
    or surrounding white space. *)
Theorem C12_layout_text_partial : forall pieces content,
  Forall (fun p => lacks ":"%char p /\ fst (name_value p) <> S_ "t") pieces ->
  trimmed content -> lacks "&"%char content -> no_tabs content = true -> no_escape_n content = true ->
  importLayoutText (textLayoutParameter pieces content) = Some content.
Proof. exact layout_text_roundtrip. Qed.
Print Assumptions C12_layout_text_partial.

Example C12_nonvacuous :
  let c := S_ "Tempo: a=b" ++ [newline; nbsp] ++ S_ "x" in
  let ps := [S_ "a"; S_ "Bi"; S_ "color=red"] in
  Forall (fun p => lacks ":"%char p /\ fst (name_value p) <> S_ "t") ps /\
  trimmed c /\ lacks "&"%char c /\ no_tabs c = true /\ no_escape_n c = true.
Proof.
  cbv zeta. split; [|repeat split; vm_compute; reflexivity].
  repeat apply Forall_cons; try apply Forall_nil; split; try reflexivity; vm_compute; discriminate.
Qed.

(** The excluded ampersand matters: a text that looks escaped is changed. *)
Theorem C12_ampersand_refuted :
  exists content, importLayoutText (textLayoutParameter [] content) <> Some content.
Proof. exists (S_ "&colon;"). vm_compute. discriminate. Qed.
Print Assumptions C12_ampersand_refuted.

(** A parameter set recovers every name and value written in it (values may hold
    equals signs, not colons), behind any number of exclamation marks. *)
Theorem C12_param_set_roundtrip : forall k ns1 ns2 params,
  lacks ":"%char ns1 -> lacks ":"%char ns2 ->
  match ns1 with [] => False | c :: _ => c <> "!"%char end ->
  params <> [] -> Forall good_param params ->
  readParamString empty_paramset
    (rep "!"%char k ++ join [":"%char] (ns1 :: ns2 :: map write_param params))
  = ParamSet ns1 ns2 (map param_value params).
Proof. exact readParamString_write. Qed.
Print Assumptions C12_param_set_roundtrip.

Theorem C12_set_parameter : forall name v l other,
  lookup name (setParameter name v l) = Some v /\
  (other <> name -> lookup other (setParameter name v l) = lookup other l).
Proof. intros. split; [apply setParameter_same|apply setParameter_other]. Qed.
Print Assumptions C12_set_parameter.

Example C12_param_nonvacuous :
  readParamString empty_paramset (S_ "!LO:N:vis=4.:x:e=a=b")
  = ParamSet (S_ "LO") (S_ "N") [(S_ "vis", S_ "4."); (S_ "x", S_ "true"); (S_ "e", S_ "a=b")].
Proof. vm_compute. reflexivity. Qed.

(** C13.  Full statement: any line is regenerated from its tokens byte for byte.
    Leading tabs are lost: *)
Theorem C13_line_roundtrip_refuted :
  exists text, createLineFromTokens (map fst (createTokensFromLine text)) (map snd (createTokensFromLine text)) <> text.
Proof. exists (tab :: S_ "4c"). vm_compute. discriminate. Qed.
Print Assumptions C13_line_roundtrip_refuted.

(** Missing: lines that start with a tab. *)
Theorem C13_line_roundtrip_partial : forall text, starts_with_tab text = false ->
  createLineFromTokens (map fst (createTokensFromLine text)) (map snd (createTokensFromLine text)) = text.
Proof. exact line_roundtrip. Qed.
Print Assumptions C13_line_roundtrip_partial.

Theorem C13_tokens_wellformed : forall text, text <> [] -> starts_with (S_ "!!") text = false ->
  forall tok, In tok (map fst (createTokensFromLine text)) -> tok <> [] /\ tab_free tok = true.
Proof. exact line_tokens_wellformed. Qed.
Print Assumptions C13_tokens_wellformed.

(** The other direction, as the exporter needs it: a line put together from
    tokens is cut into the same tokens, whatever tab counts are on record. *)
Theorem C13_tokens_roundtrip : forall tokens tabs,
  tokens <> [] -> (forall t, In t tokens -> t <> [] /\ tab_free t = true) ->
  starts_with (S_ "!!") (hd [] tokens) = false ->
  map fst (createTokensFromLine (createLineFromTokens tokens tabs)) = tokens.
Proof. exact tokens_roundtrip. Qed.
Print Assumptions C13_tokens_roundtrip.

Example C13_nonvacuous :
  createTokensFromLine (S_ "4c" ++ [tab; tab] ++ S_ "." ++ [tab] ++ S_ "4e 4g")
  = [(S_ "4c", 2); (S_ ".", 1); (S_ "4e 4g", 0)] /\
  createLineFromTokens [S_ "4c"; S_ "8d"] [] = S_ "4c" ++ [tab] ++ S_ "8d".
Proof. split; vm_compute; reflexivity. Qed.

(** C14.  Files as text. *)
Theorem C14_text_roundtrip : forall text, text <> [] ->
  ~ In (S_ "<eos>") (split_char newline (chop_newline text)) ->
  exists ls, readString text = Some ls /\ Forall newline_free ls /\
    (text = file_str ls \/ text = file_str ls ++ [newline]).
Proof. exact text_roundtrip. Qed.
Print Assumptions C14_text_roundtrip.

Theorem C14_lines_roundtrip : forall ls, ls <> [] -> Forall newline_free ls -> ~ In (S_ "<eos>") ls ->
  readString (file_write ls) = Some ls.
Proof. exact lines_roundtrip. Qed.
Print Assumptions C14_lines_roundtrip.

Theorem C14_stops_at_marker : forall before after,
  Forall newline_free before -> Forall newline_free after -> ~ In (S_ "<eos>") before ->
  readString (file_write (before ++ S_ "<eos>" :: after)) = Some before.
Proof. exact eos_stops. Qed.
Print Assumptions C14_stops_at_marker.

Theorem C14_regenerates : forall lines, Forall (fun l => starts_with_tab l = false) lines ->
  regenerate lines = lines.
Proof. exact file_regenerates. Qed.
Print Assumptions C14_regenerates.

Example C14_nonvacuous :
  readString (file_write [S_ "**kern"; S_ "4c"; []; S_ "*-"]) = Some [S_ "**kern"; S_ "4c"; []; S_ "*-"].
Proof. vm_compute. reflexivity. Qed.

(** The one text that is rejected outright. *)
Theorem C14_empty_text_refuted : readString [] = None.
Proof. reflexivity. Qed.
Print Assumptions C14_empty_text_refuted.
