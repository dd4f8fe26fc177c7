(** PropsCrLf.v — line endings do not matter (C89). *)
From Verif Require Import Base SyntaxKind Accept Lexer LexSpec LexerDirect LexerProofs LexRules Parser Grammar
  Tree TreeSink ParserTree SinkProofs Ast ParseProofs DressProofs Validation ValidProofs ValidExact PropsPtr PropsReparse PropsParser PropsLexRules LexClean
  TextEdit LineIndex PropsLineIndex CrLf CrLfTokens CrLfTree.

Lemma here_top t t' ls ls' F : Lexed t ls -> Lexed t' ls' -> al F (rt_of ls) (rt_of ls') -> here t t' 0 0 (rt_of ls) (rt_of ls').
Proof.
  intros L L' A. unfold here. rewrite !rt_of_text, <- (Lexed_text _ _ L), <- (Lexed_text _ _ L'). cbn [Nat.add]. split; [|auto].
  apply al_crs in A. rewrite !rt_of_text, <- (Lexed_text _ _ L), <- (Lexed_text _ _ L') in A. now apply sc_refl.
Qed.
Lemma lexed_pair t t' ls ls' : crs t t' -> Lexed t ls -> Lexed t' ls' -> map lt_err ls = map lt_err ls' /\
  al (Forall (fun x => lt_err x = None) ls) (rt_of ls) (rt_of ls').
Proof. intros C L L'. destruct (Lexed_crs _ _ L _ C) as (ls2 & L2 & E & A). rewrite <- (Lexed_fun _ _ L2 _ L') . auto. Qed.

(** The tokens are of the same kinds, and the lexer reports the same errors at the same places. *)
Theorem C89_tokens : forall t t' toks errs toks' errs', crs t t' -> tokenize t = Ok (toks, errs) -> tokenize t' = Ok (toks', errs') ->
  map t_kind toks = map t_kind toks' /\ Forall2 (same_error t t') errs errs'.
Proof.
  intros t t' toks errs toks' errs' C H H'. destruct (Lexed_total t) as [ls L]. destruct (Lexed_total t') as [ls' L'].
  rewrite (tokenize_direct _ _ L (tokenize_ok_fits _ _ H)) in H. rewrite (tokenize_direct _ _ L' (tokenize_ok_fits _ _ H')) in H'. injection H as <- <-. injection H' as <- <-.
  destruct (lexed_pair _ _ _ _ C L L') as [E A]. split; [|exact (errors_same _ _ _ _ _ _ _ E A (here_top _ _ _ _ _ L L' A))].
  apply al_kinds in A. unfold rt_of in A. rewrite !map_map in A |- *. exact A.
Qed.
Print Assumptions C89_tokens.

(** Two nodes of the same kind at the same place. *)
Definition same_node (t t' : text) (e e' : elem) : Prop := el_kind e = el_kind e' /\
  same_place t t' (r_start (el_range e)) (r_start (el_range e')) /\ same_place t t' (r_end (el_range e)) (r_end (el_range e')).
Lemma root_twin F t t' ls fs a ls' fs' a' : parsed t ls fs a -> parsed t' ls' fs' a' -> al F (rt_of ls) (rt_of ls') ->
  Forall2 (same_error t t') (dr_errs a) (dr_errs a') /\ twin F t t' (root_elem (root_of a)) (root_elem (root_of a')).
Proof.
  intros P P' A. assert (K : map fst (rt_of ls) = map fst (rt_of ls')) by exact (al_kinds _ _ _ A).
  assert (En : map fst (nontriv (rt_of ls)) = map fst (nontriv (rt_of ls'))).
  { revert K. generalize (rt_of ls) (rt_of ls'). clear. induction l as [|[k x] l IH]; intros [|[k' x'] l'] E; try discriminate; [reflexivity|].
    cbn [map fst] in E. injection E as <- E. cbn [nontriv filter triv fst]. unfold triv. cbn [fst]. destruct (is_trivia k); cbn [negb map fst]; [exact (IH _ E)|f_equal; exact (IH _ E)]. }
  assert (fs = fs') by exact (parsed_tree_eq _ _ _ _ _ _ _ _ P P' En). subst fs'.
  pose proof (here_top _ _ _ _ _ (pd_lex _ _ _ _ P) (pd_lex _ _ _ _ P') A) as Hh.
  pose proof (parsed_Dress _ _ _ _ P) as D. pose proof (parsed_Dress _ _ _ _ P') as D'.
  split; [exact (proj1 (Dress_same F t t' _ _ _ _ D _ _ _ D' A Hh))|].
  destruct (Dress_bare _ _ _ _ D _ _ _ D' K) as [I1 I2]. split.
  - unfold root_of, root_elem. cbn [el_green bare map]. rewrite !map_app, I1. rewrite (bare_gtok _ _ I2). reflexivity.
  - exists [], []. rewrite !app_nil_r.
    assert (EL : forall u lu fu au, parsed u lu fu au -> green_leaves (el_green (root_elem (root_of au))) = rt_of lu).
    { intros u lu fu au Q. unfold root_of, root_elem. cbn [el_green green_leaves flat_map]. rewrite app_nil_r. change (flat_map green_leaves) with leaves. rewrite leaves_app, leaves_gtok.
      rewrite (pd_leaves _ _ _ _ Q). symmetry. exact (pd_used _ _ _ _ Q). }
    rewrite (EL _ _ _ _ P), (EL _ _ _ _ P'). split; [exact A|exact Hh].
Qed.
(** The two trees have one shape, each node starts and ends at the same place, and the lexer and the parser report the same errors at the same places. *)
Theorem C89_syntax : forall t t' g es g' es', crs t t' -> parse_text t = Ok (g, es) -> parse_text t' = Ok (g', es') ->
  bare g = bare g' /\ Forall2 (same_node t t') (el_descendants (root_elem g)) (el_descendants (root_elem g')) /\ Forall2 (same_error t t') es es'.
Proof.
  intros t t' g es g' es' C H H'. destruct (parse_text_inv _ _ H) as (ls & fs & a & P & E). destruct (parse_text_inv _ _ H') as (ls' & fs' & a' & P' & E').
  injection E as -> ->. injection E' as -> ->. destruct (lexed_pair _ _ _ _ C (pd_lex _ _ _ _ P) (pd_lex _ _ _ _ P')) as [Ee A].
  destruct (root_twin _ _ _ _ _ _ _ _ _ P P' A) as [De T]. split; [exact (proj1 T)|]. split.
  - assert (G : forall l l', Forall2 (twin (Forall (fun x => lt_err x = None) ls) t t') l l' -> Forall2 (same_node t t') l l').
    { induction 1 as [|x y l l' X _ IH]; constructor; [|exact IH]. split; [exact (proj1 (twin_kind _ _ _ _ _ X))|exact (twin_range _ _ _ _ _ X)]. }
    apply G. exact (twin_descs _ _ _ _ _ _ _ T).
  - apply Forall2_app; [exact De|]. exact (errors_same _ _ _ _ _ _ _ Ee A (here_top _ _ _ _ _ (pd_lex _ _ _ _ P) (pd_lex _ _ _ _ P') A)).
Qed.
Print Assumptions C89_syntax.

(** When the lexer has nothing to report, all the errors of the file are the same and start at the same places. *)
Theorem C89_diagnostics : forall t t' toks p p', crs t t' -> tokenize t = Ok (toks, []) -> source_file_parse t = Ok p -> source_file_parse t' = Ok p' ->
  Forall2 (same_start t t') (pa_errors p) (pa_errors p').
Proof.
  intros t t' toks p p' C Ht H H'. destruct (source_file_inv _ _ H) as (ls & fs & a & v & P & Hv & Eg & ->). destruct (source_file_inv _ _ H') as (ls' & fs' & a' & v' & P' & Hv' & Eg' & ->).
  rewrite (pd_lexer _ _ _ _ P) in Ht. injection Ht as _ El. pose proof (lexed_clean _ _ El) as F.
  destruct (lexed_pair _ _ _ _ C (pd_lex _ _ _ _ P) (pd_lex _ _ _ _ P')) as [Ee A]. destruct (root_twin _ _ _ _ _ _ _ _ _ P P' A) as [De T].
  apply Forall2_app; [apply same_error_start, Forall2_app; [exact De|]|].
  - exact (errors_same _ _ _ _ _ _ _ Ee A (here_top _ _ _ _ _ (pd_lex _ _ _ _ P) (pd_lex _ _ _ _ P') A)).
  - exact (list_same _ _ _ _ _ F (twin_descs _ _ _ _ _ _ _ T) _ _ Hv Hv').
Qed.
Print Assumptions C89_diagnostics.

(** A file is accepted with one line ending exactly if it is accepted with the other. *)
Theorem C89_accepted : forall t t' p p', crs t t' -> source_file_parse t = Ok p -> source_file_parse t' = Ok p' -> (pa_errors p = [] <-> pa_errors p' = []).
Proof.
  intros t t' p p' C H H'. destruct (source_file_inv _ _ H) as (ls & fs & a & v & P & Hv & Eg & E). destruct (source_file_inv _ _ H') as (ls' & fs' & a' & v' & P' & Hv' & Eg' & E').
  pose proof (pd_lexer _ _ _ _ P) as Ht. destruct (errors_of 0 (map lt_tok ls) (map lt_err ls)) as [|x xs] eqn:El.
  - pose proof (C89_diagnostics _ _ _ _ _ C Ht H H') as G. split; intros Z; rewrite Z in G; inversion G; reflexivity.
  - pose proof (C89_tokens _ _ _ _ _ _ C Ht (pd_lexer _ _ _ _ P')) as [_ G]. inversion G as [|? y ? ys ? ? Q1 Q2]; subst. rewrite E, E', <- Q2. split; intros Z; apply app_eq_nil in Z as [Z _]; apply app_eq_nil in Z as [_ Z]; discriminate Z.
Qed.
Print Assumptions C89_accepted.

(** ** Positions *)
Lemma crs_count x x' : crs x x' -> count_nl x = count_nl x'.
Proof.
  induction 1 as [|c t t' _ IH|t t' _ IH]; [reflexivity| |].
  - change (c :: t) with ([c] ++ t). change (c :: t') with ([c] ++ t'). rewrite !count_nl_app. now rewrite IH.
  - change (10%N :: t) with ([10%N] ++ t). change (13%N :: 10%N :: t') with ([13%N; 10%N] ++ t'). rewrite !count_nl_app. now rewrite IH.
Qed.
Lemma crs_whole x x' : crs x x' -> whole x -> whole x'.
Proof.
  intros C [->|(q & ->)]; [inversion C; now left|]. right. apply crs_app_inv in C as (a & b & -> & _ & B). inversion B as [|? ? u U|? u U]; subst; inversion U; subst; [now exists a|].
  exists (a ++ [13%N]). now rewrite <- app_assoc.
Qed.
Lemma len16_app a b : len16 (a ++ b) = len16 a + len16 b.
Proof. induction a as [|c a IH]; [reflexivity|]. cbn [app len16]. rewrite IH. lia. Qed.
(** The same place has the same line, and the same column; the column is one more if the place is between the carriage return and the newline. *)
Theorem C89_positions : forall t t' li li' n n' pos pos', li_new t = Ok li -> li_new t' = Ok li' -> same_place t t' n n' ->
  to_proto_position li n = Ok pos -> to_proto_position li' n' = Ok pos' ->
  lc_line pos = lc_line pos' /\ (lc_col pos = lc_col pos' \/ lc_col pos' = lc_col pos + 1 /\ exists x b x' b', t = x ++ [10%N] ++ b /\ t' = x' ++ [13%N; 10%N] ++ b' /\ n = blen x /\ n' = blen (x' ++ [13%N])).
Proof.
  intros t t' li li' n n' pos pos' L L' (x & b & x' & b' & E & E' & -> & -> & Cb & Hx) Hp Hp'.
  destruct (C42_position _ _ _ _ L E) as (q & Hq & D & _). rewrite Hp in Hq. injection Hq as <-.
  destruct D as (p & s & (Ex & Hw & Hs) & E1 & E2).
  assert (K : forall y, crs x y -> exists p', y = p' ++ s /\ whole p' /\ count_nl p' = count_nl p).
  { intros y Cy. rewrite Ex in Cy. apply crs_app_inv in Cy as (p' & s' & -> & A & B). apply crs_no_newline in B; [|exact Hs]. subst s'. exists p'. split; [reflexivity|]. split; [exact (crs_whole _ _ A Hw)|symmetry; exact (crs_count _ _ A)]. }
  destruct Hx as [Hx|(y & b0 & b0' & Ey & Hy & Eb & Eb')].
  - destruct (K _ Hx) as (p' & Ep & Hw' & Ec). assert (D' : denotes (mkLC (count_nl p') (len16 s)) x') by (exists p', s; split; [split; auto|auto]).
    destruct (C42_offset _ _ _ _ _ L' E' D') as [_ R]. rewrite Hp' in R. injection R as ->. cbn [lc_line lc_col]. rewrite Ec. auto.
  - destruct (K _ Hy) as (p' & Ep & Hw' & Ec). assert (D' : denotes (mkLC (count_nl p') (len16 (s ++ [13%N]))) x').
    { exists p', (s ++ [13%N]). split; [|auto]. split; [rewrite Ey, Ep, <- app_assoc; reflexivity|]. split; [exact Hw'|]. rewrite in_app_iff. intros [I|[I|[]]]; [exact (Hs I)|discriminate I]. }
    destruct (C42_offset _ _ _ _ _ L' E' D') as [_ R]. rewrite Hp' in R. injection R as ->. cbn [lc_line lc_col]. rewrite Ec. split; [exact E1|]. right. split; [rewrite E2, len16_app; reflexivity|].
    exists x, b0, y, b0'. subst. repeat split. rewrite <- app_assoc. reflexivity.
Qed.
Print Assumptions C89_positions.

(** Each file with newlines has a form with carriage returns everywhere, and is the form of another. *)
Definition crlf_of (t : text) : text := flat_map (fun c => if (c =? 10)%N then [13%N; 10%N] else [c]) t.
Theorem C89_conversion : forall t, crs t (crlf_of t).
Proof. induction t as [|c t IH]; [constructor|]. unfold crlf_of. cbn [flat_map]. destruct (N.eqb_spec c 10) as [->|]; [now apply crs_add|now apply crs_same]. Qed.
Print Assumptions C89_conversion.

(** ** Cases *)
Definition nl : text := [10%N].
Definition case1 : text := Eval vm_compute in txt "local x = [[" ++ nl ++ txt "\q]] -- c" ++ nl ++ txt "f(" ++ nl ++ txt "y + 1" ++ nl.
Example C89_case : match source_file_parse case1, source_file_parse (crlf_of case1) with
  | Ok p, Ok p' => map (fun e => (e_msg e, r_start (e_range e), r_end (e_range e))) (pa_errors p) =
      [("Expected RParen, got Eof", 31, 31); ("Invalid escape sequence", 13, 15)]%string /\
    map (fun e => (e_msg e, r_start (e_range e), r_end (e_range e))) (pa_errors p') =
      [("Expected RParen, got Eof", 34, 34); ("Invalid escape sequence", 14, 16)]%string
  | _, _ => False
  end.
Proof. vm_compute. auto. Qed.
(** Without the condition the errors can differ: after a lexer error a string token ends with its quote in one text only. *)
Definition case2 : text := Eval vm_compute in txt "x = " ++ [34%N; 92%N; 34%N] ++ nl.
Theorem C89_needed : exists p p', source_file_parse case2 = Ok p /\ source_file_parse (crlf_of case2) = Ok p' /\
  map e_msg (pa_errors p) = ["Unexpected newline in string"; "Invalid escape sequence"]%string /\ map e_msg (pa_errors p') = ["Unexpected newline in string"]%string.
Proof. eexists. eexists. split; [vm_compute; reflexivity|]. split; [vm_compute; reflexivity|]. split; reflexivity. Qed.
Print Assumptions C89_needed.
(** The end of an error need not be the same place: the newline after a backslash counts as escaped in one text, the carriage return in the other. *)
Definition case3 : text := Eval vm_compute in txt "x = [[" ++ [92%N] ++ nl ++ txt "]]".
Theorem C89_ends : exists p p' e e', source_file_parse case3 = Ok p /\ source_file_parse (crlf_of case3) = Ok p' /\ pa_errors p = [e] /\ pa_errors p' = [e'] /\
  same_start case3 (crlf_of case3) e e' /\ e_range e = mkRange 6 8 /\ e_range e' = mkRange 6 8.
Proof.
  eexists. eexists. eexists. eexists. split; [vm_compute; reflexivity|]. split; [vm_compute; reflexivity|]. split; [reflexivity|]. split; [reflexivity|]. split; [|split; reflexivity].
  split; [reflexivity|]. exists (txt "x = [["), ([92%N; 10%N] ++ txt "]]"), (txt "x = [["), ([92%N; 13%N; 10%N] ++ txt "]]"). repeat split; [|left; apply crs_refl].
  cbn [app]. apply crs_same, crs_add, crs_refl.
Qed.
Print Assumptions C89_ends.
