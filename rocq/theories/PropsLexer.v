(** PropsLexer.v — the lexer properties C01–C10 of properties.jsonl. Vocabulary: LexSpec.v. *)
From Verif Require Import Base SyntaxKind Accept Lexer LexSpec LexerProofs LexerProps LexerNum LexerFwd.

(** Text literals with a newline, for examples. *)
Definition nl : text := [10%N].

(** * C01 Tokenization is total and lossless *)
Theorem C01_tokenize_total_lossless : forall t : text, fits_u32 (blen t) = true ->
  exists toks errs, tokenize t = Ok (toks, errs) /\
    exists ls : list text, map blen ls = map t_len toks /\ concat ls = t /\
      Forall (fun l => l <> []) ls.
Proof. exact tokenize_total. Qed.
Print Assumptions C01_tokenize_total_lossless.

(** The size bound is sharp: any text of 4 GiB or more panics (TextSize is a u32). *)
Theorem C01_size_bound_sharp : forall t : text, t <> [] -> fits_u32 (blen t) = false -> tokenize t = Panic.
Proof. exact tokenize_too_long. Qed.
Print Assumptions C01_size_bound_sharp.

Example C01_case : tokenize (txt "x = 'a" ++ nl ++ [955%N]) =
  Ok ([mkToken KIdent 1; mkToken KWhitespace 1; mkToken KEq 1; mkToken KWhitespace 1; mkToken KStr 2;
       mkToken KWhitespace 1; mkToken KUnknown 2],
      [mkErr "Unexpected newline in string" (mkRange 4 6); mkErr "Got an unknown token" (mkRange 7 9)]).
Proof. vm_compute. reflexivity. Qed.

(** * C02 Operators *)
Theorem C02_operator_exact_and_longest : forall t a k l b sp, token_at t a k l b -> In (k, sp) spellings ->
  l = sp /\ (forall sp', In sp' (openers ++ map snd spellings) -> prefix_of sp' (l ++ b) ->
             length sp' <= length l).
Proof. exact op_token_exact. Qed.
Print Assumptions C02_operator_exact_and_longest.

Theorem C02_operator_text_is_operator : forall t a k l b k' sp', token_at t a k l b -> In (k', sp') spellings ->
  prefix_of sp' (l ++ b) ->
  (In (k, l) spellings /\ length sp' <= length l) \/ (exists o, In o openers /\ prefix_of o l).
Proof. exact op_token_when. Qed.
Print Assumptions C02_operator_text_is_operator.

(** A token of a text, found by computation. *)
Ltac find_token n :=
  match goal with |- token_at ?t _ _ _ _ =>
    let r := eval vm_compute in (tokenize t) in
    match r with Ok (?toks, ?errs) =>
      exists toks, errs, (firstn n toks), (skipn (S n) toks);
      repeat split; vm_compute; reflexivity end end.

Example C02_case : token_at (txt "a<=b") (txt "a") KLtEq (txt "<=") (txt "b").
Proof. find_token 1. Qed.

(** * C03 Keywords and identifiers *)
Theorem C03_keywords_and_identifiers : forall t a k l b, token_at t a k l b ->
  ((k = KIdent \/ exists w, In (w, k) keywords) <-> ident_shape l) /\
  (ident_shape l -> ~ starts identc b /\
     (In (l, k) keywords \/ (k = KIdent /\ forall k', ~ In (l, k') keywords))).
Proof. exact ident_token. Qed.
Print Assumptions C03_keywords_and_identifiers.

Example C03_case : token_at (txt "return endx") (txt "return ") KIdent (txt "endx") [] /\
                   token_at (txt "return endx") [] KReturnKw (txt "return") (txt " endx").
Proof. split; [find_token 2|find_token 0]. Qed.

(** * C04 Whitespace, comments, numbers *)
Theorem C04_whitespace : forall t a k l b, token_at t a k l b ->
  (k = KWhitespace <-> starts blank l) /\
  (k = KWhitespace -> Forall blank l /\ ~ starts blank b).
Proof. exact whitespace_token. Qed.
Print Assumptions C04_whitespace.

Theorem C04_comment : forall t a k l b, token_at t a k l b ->
  (k = KComment <-> prefix_of (txt "--") l) /\
  (k = KComment -> ~ prefix_of (txt "--[[") l ->
     Forall (fun c => c <> 10%N) l /\ (b = [] \/ exists b', b = 10%N :: b')).
Proof. exact comment_token. Qed.
Print Assumptions C04_comment.

Theorem C04_number : forall t a k l b, token_at t a k l b ->
  (k = KNumber <-> starts digit l) /\
  (k = KNumber -> numeral l /\ forall p, numeral p -> prefix_of p (l ++ b) -> length p <= length l).
Proof. exact number_token. Qed.
Print Assumptions C04_number.

Example C04_case : let t := txt "1.5e-3  --c" ++ nl ++ txt "x" in
  token_at t [] KNumber (txt "1.5e-3") (txt "  --c" ++ nl ++ txt "x") /\
  token_at t (txt "1.5e-3") KWhitespace (txt "  ") (txt "--c" ++ nl ++ txt "x") /\
  token_at t (txt "1.5e-3  ") KComment (txt "--c") (nl ++ txt "x").
Proof. cbv zeta. repeat apply conj; [find_token 0|find_token 1|find_token 2]. Qed.

(** * C05 Lexical errors *)
Theorem C05_lexical_errors : forall t toks errs, tokenize t = Ok (toks, errs) ->
  exists es, length es = length toks /\ errs = errors_of 0 toks es /\
    forall i k l a b e, nth_error toks i = Some (mkToken k (blen l)) -> nth_error es i = Some e ->
      t = a ++ l ++ b -> blen a = list_sum (map t_len (firstn i toks)) -> error_spec k l e.
Proof. exact tokenize_errors. Qed.
Print Assumptions C05_lexical_errors.

Example C05_case : tokenize (txt "@ 'a' ""b") =
  Ok ([mkToken KUnknown 1; mkToken KWhitespace 1; mkToken KStr 3; mkToken KWhitespace 1; mkToken KStr 2],
      [mkErr "Got an unknown token" (mkRange 0 1); mkErr "Could not find closing delimiter `""`" (mkRange 6 8)]).
Proof. vm_compute. reflexivity. Qed.

(** * C06 Short strings: false for a final escaped backslash and for backslash-newline *)
Theorem C06_short_strings_partial : forall q items, quote_char q -> Forall (str_item q) items ->
  Forall (fun it => ~ In 10%N it /\ ~ In 0%N it) items -> last items [] <> [92%N; 92%N] ->
  let l := [q] ++ concat items ++ [q] in fits_u32 (blen l) = true -> lexes_as l KStr.
Proof. exact short_string_lexes. Qed.
Print Assumptions C06_short_strings_partial.

Theorem C06_refuted : ~ (forall l, lua_short_string l -> fits_u32 (blen l) = true -> lexes_as l KStr).
Proof.
  intros H. assert (E : lexes_as [34%N; 92%N; 92%N; 34%N] KStr); [|discriminate E].
  apply H; [|reflexivity]. exists 34%N, [[92%N; 92%N]]. repeat split; [now right|].
  repeat constructor.
Qed.
Print Assumptions C06_refuted.

Theorem C06_refuted_newline :
  ~ (forall l, lua_short_string l -> ~ prefix_of (rev (txt "\\""")) (rev l) -> fits_u32 (blen l) = true -> lexes_as l KStr).
Proof.
  intros H. assert (E : lexes_as [34%N; 92%N; 10%N; 34%N] KStr); [|discriminate E].
  apply H; [| |reflexivity].
  - exists 34%N, [[92%N; 10%N]]. repeat split; [now right|]. repeat constructor.
  - intros [r Hr]. discriminate Hr.
Qed.
Print Assumptions C06_refuted_newline.

Example C06_case : lexes_as (txt "'a\'b'") KStr.
Proof.
  apply (C06_short_strings_partial 39%N [txt "a"; txt "\'"; txt "b"]); [now left| | |discriminate|reflexivity].
  - repeat constructor; discriminate.
  - repeat constructor; intros [E|F]; try discriminate; repeat destruct F as [F|F]; try discriminate; contradiction.
Qed.

(** * C07 Long strings: false when the content holds ] or \] *)
Theorem C07_long_strings_partial : forall n x, no_escaped_close x -> no_early_close n x ->
  let l := long_open n ++ x ++ long_close n in fits_u32 (blen l) = true -> lexes_as l KStr.
Proof. exact long_string_lexes. Qed.
Print Assumptions C07_long_strings_partial.

Theorem C07_refuted : ~ (forall n x l, lua_long_bracket n x l -> fits_u32 (blen l) = true -> lexes_as l KStr).
Proof.
  intros H. assert (E : lexes_as (txt "[[a]b]]") KStr); [|discriminate E].
  apply (H 0 (txt "a]b")); [|reflexivity]. split; [reflexivity|].
  intros p q E. cbn in E.
  repeat (destruct p as [|? p]; [cbn in E; try discriminate E; injection E; intros; congruence|cbn in E; injection E as _ E]).
  destruct p; discriminate E.
Qed.
Print Assumptions C07_refuted.

Example C07_case : lexes_as (txt "[==[a]]b==]==]") KStr.
Proof.
  apply (C07_long_strings_partial 2 (txt "a]]b==")); [| |reflexivity].
  - intros p s E. do 7 (destruct p as [|? p]; [discriminate E|cbn in E; injection E as _ E]). destruct p; discriminate E.
  - intros p s E. cbn in E. do 6 (destruct p as [|? p]; [discriminate E|cbn in E; injection E as _ E]). destruct p; discriminate E.
Qed.

(** * C08 Long comments: code after the close bracket on the same line is swallowed *)
Theorem C08_long_comment_partial : forall x b, no_escaped_close x -> no_early_close 0 x ->
  (b = [] \/ exists b', b = 10%N :: b') ->
  let c := txt "--[[" ++ x ++ txt "]]" in
  fits_u32 (blen (c ++ b)) = true ->
  exists toks errs, tokenize b = Ok (toks, errs) /\
    tokenize (c ++ b) = Ok (mkToken KComment (blen c) :: toks, map (shift_err (blen c)) errs).
Proof. exact long_comment_tokens. Qed.
Print Assumptions C08_long_comment_partial.

Theorem C08_refuted :
  ~ (forall x b toks errs, lua_long_bracket 0 x (long_open 0 ++ x ++ long_close 0) ->
       let c := txt "--[[" ++ x ++ txt "]]" in
       tokenize b = Ok (toks, errs) -> fits_u32 (blen (c ++ b)) = true ->
       tokenize (c ++ b) = Ok (mkToken KComment (blen c) :: toks, map (shift_err (blen c)) errs)).
Proof.
  intros H. specialize (H (txt "x") (txt " y") [mkToken KWhitespace 1; mkToken KIdent 1] []).
  cbv zeta in H. vm_compute in H. assert (E : [mkToken KComment 9] = [mkToken KComment 7; mkToken KWhitespace 1; mkToken KIdent 1]); [|discriminate E].
  assert (Hl : lua_long_bracket 0 (txt "x") (long_open 0 ++ txt "x" ++ long_close 0)).
  { split; [reflexivity|]. intros p q E. cbn in E.
    repeat (destruct p as [|? p]; [cbn in E; try discriminate E; injection E; intros; congruence|cbn in E; injection E as _ E]).
    destruct p; discriminate E. }
  vm_compute in Hl. specialize (H Hl eq_refl eq_refl). congruence.
Qed.
Print Assumptions C08_refuted.

Example C08_case : exists toks errs, tokenize (nl ++ txt "y") = Ok (toks, errs) /\
    tokenize (txt "--[[a" ++ nl ++ txt "b]]" ++ nl ++ txt "y") = Ok (mkToken KComment 9 :: toks, errs).
Proof. vm_compute. eexists _, _. split; reflexivity. Qed.

(** * C09 Numerals: false for signed-plus exponents, .5 and 0X *)
Theorem C09_numerals_partial : forall l, lua_numeral l -> starts digit l -> ~ In 43%N l ->
  ~ prefix_of (txt "0X") l -> fits_u32 (blen l) = true -> lexes_as l KNumber.
Proof. intros l H H1 H2 H3. exact (numeral_lexes l (lua_numeral_numeral l H H1 H2 H3)). Qed.
Print Assumptions C09_numerals_partial.

Theorem C09_refuted :
  (lua_numeral (txt "3e+5") /\ ~ lexes_as (txt "3e+5") KNumber) /\
  (lua_numeral (txt ".5") /\ ~ lexes_as (txt ".5") KNumber) /\
  (lua_numeral (txt "0XF") /\ ~ lexes_as (txt "0XF") KNumber).
Proof.
  split; [|split]; (split; [|intros E; discriminate E]).
  - left. exists (txt "3"), [], (txt "e+5"). split; [reflexivity|].
    repeat split; [repeat constructor; unfold digit; cbn; discriminate|now left| |left; discriminate].
    right. exists (txt "e"), (txt "+"), (txt "5"). repeat split; auto; [discriminate|].
    repeat constructor; unfold digit; cbn; discriminate.
  - left. exists [], (txt ".5"), []. split; [reflexivity|]. repeat split; [constructor| |now left|].
    + right. exists (txt "5"). split; [reflexivity|]. repeat constructor; unfold digit; cbn; discriminate.
    + right. exists (txt "5"). split; [reflexivity|discriminate].
  - right. exists (txt "0X"), (txt "F"). repeat split; [now right|discriminate|].
    constructor; [|constructor]. right; left. split; cbn; discriminate.
Qed.
Print Assumptions C09_refuted.

Example C09_case : lexes_as (txt "0x1F") KNumber /\ lexes_as (txt "12.5e-3") KNumber.
Proof. split; vm_compute; reflexivity. Qed.

(** * C10 Resuming *)
Theorem C10_resume : forall t toks1 toks2 errs a b, tokenize t = Ok (toks1 ++ toks2, errs) ->
  t = a ++ b -> blen a = list_sum (map t_len toks1) ->
  exists errs1 errs2, tokenize b = Ok (toks2, errs2) /\ errs = errs1 ++ map (shift_err (blen a)) errs2.
Proof. exact tokenize_resume. Qed.
Print Assumptions C10_resume.

Theorem C10_spaced_lexemes : forall ps t toks, spaced ps t toks -> fits_u32 (blen t) = true ->
  tokenize t = Ok (toks, []).
Proof. exact spaced_tokens. Qed.
Print Assumptions C10_spaced_lexemes.

Example C10_case : exists toks, spaced [(KIdent, txt "x"); (KEq, txt "="); (KNumber, txt "0x1F"); (KEndKw, txt "end")]
                        (txt "x =  0x1F end ") toks /\ length toks = 8.
Proof.
  assert (H1 : blank_run (txt " ")) by (split; [discriminate|repeat constructor]).
  assert (H2 : blank_run (txt "  ")) by (split; [discriminate|repeat constructor]).
  eexists. split.
  - apply (sp_cons KIdent (txt "x") (txt " ")); [|exact H1|].
    { apply lx_ident; [exists (ch "x"), []; repeat split; [right; left; cbn; split; discriminate|constructor]|].
      intros k H. cbn in H. repeat (destruct H as [H|H]; [discriminate H|]). exact H. }
    apply (sp_cons KEq (txt "=") (txt "  ")); [|exact H2|].
    { apply lx_op. cbn. tauto. }
    apply (sp_cons KNumber (txt "0x1F") (txt " ")); [|exact H1|].
    { apply lx_number. right. exists (txt "1F"). split; [reflexivity|].
      constructor; [left; cbn; split; discriminate|constructor; [right; left; cbn; split; discriminate|constructor]]. }
    apply (sp_cons KEndKw (txt "end") (txt " ")); [|exact H1|constructor].
    apply lx_keyword. cbn. tauto.
  - reflexivity.
Qed.
