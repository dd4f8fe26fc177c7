(** PropsClient.v — C71: what an editor shows. The last diagnostics published for an open document,
    read as an LSP client reads them, underline exactly the errors of the document's current text;
    a valid program shows none. Composition of the server (Server.v), the conversion of positions
    (LineIndex.v) and the parser. *)
From Coq Require Import ZArith.
From Verif Require Import Base SyntaxKind TokenSet Lexer LexSpec LexerDirect LexerProofs LexerProps BindingPowers Parser Grammar
  Event EventProofs Tree TreeSink ParserTree SinkProofs GrammarSpec Ast ParseSpec ParseProofs DressProofs
  Validation ValidProofs ValidSpec ValidExact LuaSyntax LuaDialect PropsLua TextEdit Stdx LineIndex PropsTextEdit PropsLineIndex PropsParser Ide PropsIde
  Vfs Server ServerInv PropsServer PropsDiag.

(** The byte range [s, e) of [t] is a piece of whole characters. *)
Definition piece (t : text) (r : range) : Prop :=
  exists a m b, t = a ++ m ++ b /\ r_start r = blen a /\ r_end r = blen (a ++ m).

(** ** Nodes are pieces of the text *)
Lemma place_piece cs : forall off x, In x (place off cs) -> exists u v, flat_map green_text cs = u ++ green_text (el_green x) ++ v /\ el_off x = off + blen u.
Proof.
  induction cs as [|c cs IH]; intros off x; [intros []|]. cbn [place flat_map]. intros [<-|H].
  - exists [], (flat_map green_text cs). split; [reflexivity|]. cbn. lia.
  - destruct (IH _ _ H) as (u & v & E & Ho). exists (green_text c ++ u), v. rewrite E, <- !app_assoc. split; [reflexivity|].
    rewrite Ho, blen_app. unfold green_len. lia.
Qed.
Definition sits (t : text) (e : elem) : Prop := exists a b, t = a ++ green_text (el_green e) ++ b /\ el_off e = blen a.
Lemma sits_child t e x : sits t e -> In x (el_children_with_tokens e) -> sits t x.
Proof.
  intros (a & b & E & Ho) H. unfold el_children_with_tokens in H. destruct (el_green e) as [k cs|k y] eqn:Eg; [|destruct H].
  destruct (place_piece _ _ _ H) as (u & v & E2 & Ho2). exists (a ++ u), (v ++ b). change (green_text (GNode k cs)) with (flat_map green_text cs) in E.
  rewrite E, E2, <- !app_assoc. split; [reflexivity|]. rewrite Ho2, Ho, blen_app. lia.
Qed.
Lemma sits_ast cast t e x : sits t e -> In x (ast_children cast e) -> sits t x.
Proof. intros Hs H. unfold ast_children, el_children in H. apply filter_In in H as [H _]. apply filter_In in H as [H _]. exact (sits_child _ _ _ Hs H). Qed.
Lemma sits_piece t e : sits t e -> piece t (el_range e).
Proof. intros (a & b & E & Ho). exists a, (green_text (el_green e)), b. split; [exact E|]. unfold el_range. cbn [r_start r_end]. rewrite Ho, blen_app. unfold green_len. auto. Qed.
Lemma sits_desc : forall g t off e, sits t (mkElem off g) -> In e (descendants_at off g) -> sits t e.
Proof.
  refine (green_ind2 _ _ _); [|intros k x t off e _ []]. intros k cs IH t off e Hs H. rewrite descendants_node in H. destruct H as [<-|H]; [exact Hs|].
  destruct (place_descs _ _ _ H) as (c & Hc & He). assert (Hsc : sits t c) by (apply (sits_child _ _ _ Hs); exact Hc).
  assert (Hin : In (el_green c) cs).
  { clear -Hc. revert off Hc. induction cs as [|d cs IH]; intros off; [intros []|]. cbn [place]. intros [<-|H]; [now left|right; eauto]. }
  rewrite Forall_forall in IH. destruct c as [off' g']. exact (IH _ Hin t off' e Hsc He).
Qed.

(** ** Escape errors are pieces of the string token *)
Lemma unescape_piece fuel : forall x u v start pos e, blen u = pos -> In e (unescape fuel pos start x) ->
  exists a m b, u ++ x ++ v = a ++ m ++ b /\ r_start (e_range e) = blen a + start /\ r_end (e_range e) = blen (a ++ m) + start.
Proof.
  induction fuel as [|n IH]; intros x u v start pos e Hu; [intros []|]. cbn [unescape]. destruct x as [|c x]; [intros []|].
  destruct (c =? backslash)%N eqn:E.
  - apply N.eqb_eq in E as ->. change (utf8_len backslash) with 1. destruct x as [|d x].
    + intros [<-|[]]. exists u, [backslash], v. split; [reflexivity|]. cbn [e_range r_start r_end]. rewrite blen_app, Hu. change (blen [backslash]) with 1. auto.
    + assert (HR : In e (unescape n (pos + 1 + utf8_len d) start x) -> exists a m b, u ++ (backslash :: d :: x) ++ v = a ++ m ++ b /\ r_start (e_range e) = blen a + start /\ r_end (e_range e) = blen (a ++ m) + start).
      { intros H. destruct (IH x (u ++ [backslash; d]) v start (pos + 1 + utf8_len d) e ltac:(rewrite blen_app, !blen_cons; change (utf8_len backslash) with 1; cbn [blen]; lia) H) as (a & m & b & E1 & E2).
        exists a, m, b. split; [|exact E2]. rewrite <- E1, <- app_assoc. reflexivity. }
      destruct (escape_ok d); [exact HR|]. intros [<-|H]; [|exact (HR H)]. exists u, [backslash; d], (x ++ v). split; [reflexivity|].
      cbn [e_range r_start r_end]. rewrite blen_app, !blen_cons, Hu. change (utf8_len backslash) with 1. cbn [blen]. lia.
  - intros H. destruct (IH x (u ++ [c]) v start (pos + utf8_len c) e ltac:(rewrite blen_app, blen_cons; cbn [blen]; lia) H) as (a & m & b & E1 & E2).
    exists a, m, b. split; [|exact E2]. rewrite <- E1, <- app_assoc. reflexivity.
Qed.
Lemma removelast_prefix (x : text) : exists v, x = removelast x ++ v.
Proof. destruct x as [|d x] using rev_ind; [exists []; reflexivity|]. exists [d]. now rewrite removelast_last. Qed.
Lemma unquote_piece x o body : unquote x = Ok (Some (o, body)) -> ~ half_bracket x -> exists u v, x = u ++ body ++ v /\ blen u = o.
Proof.
  destruct x as [|d x1]; [discriminate|]. unfold unquote.
  destruct ((d =? squote)%N || (d =? dquote)%N) eqn:Eq.
  - destruct (negb (last_is d (d :: x1)) || (blen (d :: x1) =? 1)) eqn:El; [discriminate|]. intros [= <- <-] _.
    destruct (removelast_prefix x1) as (v & Ev). exists [d], v. split; [now rewrite Ev at 1|].
    apply orb_true_iff in Eq as [E|E]; apply N.eqb_eq in E as ->; reflexivity.
  - destruct (d =? lbr)%N eqn:Ed; [|discriminate]. apply N.eqb_eq in Ed as ->.
    set (n := length (take_while (N.eqb eqs) x1)). intros [= <- <-] Hn.
    pose proof (take_while_split (N.eqb eqs) x1) as Hs. fold n in Hs. rewrite take_while_all in Hs. fold n in Hs.
    pose proof (take_while_stop x1) as Hst. fold n in Hst.
    set (t2 := skipn n x1) in *.
    set (t3 := match t2 with [] => t2 | c :: r => if (c =? lbr)%N then r else t2 end).
    assert (H2 : t2 = lbr :: t3).
    { unfold t3. destruct t2 as [|c r] eqn:E2.
      - exfalso. apply Hn. exists n, []. rewrite app_nil_r. rewrite app_nil_r in Hs. now rewrite Hs at 1.
      - destruct (c =? lbr)%N eqn:Ec; [apply N.eqb_eq in Ec as ->; reflexivity|].
        exfalso. apply Hn. exists n, (c :: r). split; [now rewrite Hs at 1|]. split; [exact Hst|exact Ec]. }
    match goal with |- exists u v, _ = u ++ ?b ++ v /\ _ => assert (Hb : exists v, t3 = b ++ v) end.
    { destruct (last_is rbr t3); [|exists []; now rewrite app_nil_r].
      match goal with |- context [if last_is rbr ?y then _ else _] => assert (Hy : exists v, t3 = y ++ v) end.
      { destruct (removelast_prefix t3) as (v & Ev). match goal with |- exists v, _ = firstn ?k ?z ++ v => exists (skipn k z ++ v) end.
        rewrite app_assoc, firstn_skipn. exact Ev. }
      destruct (last_is rbr _); [|exact Hy]. destruct Hy as (v & Hy). match type of Hy with _ = ?y ++ v => destruct (removelast_prefix y) as (w & Ew); exists (w ++ v); rewrite app_assoc, <- Ew; exact Hy end. }
    destruct Hb as (v & Hb). exists (lbr :: repeat eqs n ++ [lbr]), v. split.
    + rewrite Hs at 1. rewrite H2. rewrite Hb at 1. cbn [app]. rewrite <- app_assoc. reflexivity.
    + assert (Hr : forall k, blen (repeat eqs k) = k) by (induction k as [|k IHk]; [reflexivity|]; cbn [repeat]; rewrite blen_cons, IHk; reflexivity).
      rewrite blen_cons, blen_app, Hr. change (utf8_len lbr) with 1. change (blen [lbr]) with 1. lia.
Qed.

(** ** Every error of a parse is a piece of the text *)
Lemma bnd_prefix rt n : bnd rt n -> exists a b, texts rt = a ++ b /\ n = blen a.
Proof. intros (c & r & -> & ->). exists (texts c), (texts r). now rewrite texts_app. Qed.
Lemma two_prefixes (a a' : text) : forall b b', a ++ b = a' ++ b' -> blen a <= blen a' -> exists m, a' = a ++ m.
Proof.
  revert a'. induction a as [|c a IH]; intros a' b b' E L; [exists a'; reflexivity|]. destruct a' as [|c' a'].
  - rewrite blen_cons in L. pose proof (utf8_len_pos c). cbn [blen] in L. lia.
  - cbn [app] in E. injection E as -> E. rewrite !blen_cons in L. destruct (IH a' b b' E ltac:(lia)) as (m & ->). exists m. reflexivity.
Qed.
Lemma piece_of_ends t r a b a' b' : t = a ++ b -> r_start r = blen a -> t = a' ++ b' -> r_end r = blen a' -> r_start r <= r_end r -> piece t r.
Proof.
  intros E1 S1 E2 S2 L. rewrite S1, S2 in L. assert (E : a ++ b = a' ++ b') by congruence. destruct (two_prefixes _ _ _ _ E L) as (m & ->).
  exists a, m, b'. rewrite app_assoc. auto.
Qed.
Lemma parsed_error_piece t ls fs a e : parsed t ls fs a -> In e (dr_errs a ++ errors_of 0 (map lt_tok ls) (map lt_err ls)) -> piece t (e_range e).
Proof.
  intros Hp He. rewrite <- rt_of_toks in He.
  assert (HB : bnd (rt_of ls) (r_start (e_range e)) /\ bnd (rt_of ls) (r_end (e_range e)) /\ r_start (e_range e) <= r_end (e_range e)).
  { apply in_app_iff in He as [He|He].
    - pose proof (Dress_bnd _ _ _ _ (parsed_Dress _ _ _ _ Hp) (rt_of ls) [] eq_refl eq_refl) as HB.
      rewrite Forall_forall in HB. exact (HB _ He).
    - apply (errors_of_bnd (rt_of ls) [] (map lt_err ls) e); [|exact He]. unfold rt_of. now rewrite !map_length. }
  destruct HB as (B1 & B2 & B3). destruct (bnd_prefix _ _ B1) as (x & y & E1 & S1). destruct (bnd_prefix _ _ B2) as (x' & y' & E2 & S2).
  rewrite rt_of_text, <- (Lexed_text _ _ (pd_lex _ _ _ _ Hp)) in E1, E2. exact (piece_of_ends _ _ _ _ _ _ E1 S1 E2 S2 B3).
Qed.

(** No string token of the text is a bracket without its second bracket, such as [[=x]. *)
Definition brackets_complete (g : green) : Prop := forall x, In (KStr, x) (green_leaves g) -> ~ half_bracket x.

Lemma validate_expr_stmt_piece t e x : sits t e -> In x (validate_expr_stmt e) -> piece t (e_range x).
Proof.
  intros Hs. unfold validate_expr_stmt. destruct (expr_stmt_multival e) as [mv|] eqn:Em.
  - assert (Hmv : sits t mv).
    { unfold expr_stmt_multival, ast_child in Em. apply (sits_ast (is_kind KMultivalExpr) t e); [exact Hs|].
      destruct (ast_children _ e); [discriminate|]. injection Em as ->. now left. }
    rewrite !in_app_iff. intros [H|[H|H]].
    + apply in_map_iff in H as (y & <- & Hy). apply filter_In in Hy as [Hy _]. apply sits_piece. exact (sits_ast _ _ _ _ Hmv Hy).
    + destruct (_ =? 0); [|destruct H]. destruct H as [<-|[]]. exact (sits_piece _ _ Hs).
    + destruct (1 <? _); [|destruct H]. destruct H as [<-|[]]. exact (sits_piece _ _ Hs).
  - intros [<-|[]]. exact (sits_piece _ _ Hs).
Qed.
Lemma validate_assign_piece t e x : sits t e -> In x (validate_assign e) -> piece t (e_range x).
Proof.
  intros Hs. unfold validate_assign. destruct (assign_lhs e) as [mv|] eqn:Em; [destruct (assign_rhs e)|].
  - assert (Hmv : sits t mv).
    { unfold assign_lhs in Em. apply (sits_ast (is_kind KMultivalExpr) t e mv Hs). exact (nth_error_In _ _ Em). }
    intros H. apply in_map_iff in H as (y & <- & Hy). apply filter_In in Hy as [Hy _]. apply sits_piece. exact (sits_ast _ _ _ _ Hmv Hy).
  - intros [<-|[]]. exact (sits_piece _ _ Hs).
  - intros [<-|[]]. exact (sits_piece _ _ Hs).
Qed.
Lemma parsed_validate_piece t ls fs a es e : parsed t ls fs a -> validate (root_elem (root_of a)) = Ok es -> In e es ->
  brackets_complete (root_of a) -> piece t (e_range e).
Proof.
  intros H Hv He HB. destruct (validate_list_in _ _ Hv _ He) as (n & xs & Hn & Hx & Hin).
  assert (Hs : sits t n).
  { apply (sits_desc (root_of a) t 0 n); [|exact Hn]. exists [], []. cbn [el_green el_off app blen]. rewrite app_nil_r, (root_text _ _ _ _ H). auto. }
  unfold validate_node in Hx. destruct (el_kind n) eqn:Hk; try (injection Hx as <-; destruct Hin; fail).
  - injection Hx as <-. exact (validate_assign_piece _ _ _ Hs Hin).
  - injection Hx as <-. exact (validate_expr_stmt_piece _ _ _ Hs Hin).
  - destruct (parsed_literal _ _ _ _ _ H Hn Hk) as (k & x & c & r & Hl & Hg & Hrt & Hoff).
    unfold validate_literal, literal_kind_of in Hx. destruct n as [off g]. cbn [el_green el_off] in *. subst g.
    rewrite (literal_token_one _ _ _ (literal_nontriv _ Hl)) in Hx. cbn [rbind] in Hx.
    unfold el_kind in Hx. cbn [el_green green_kind] in Hx. cbn in Hl.
    repeat destruct Hl as [<-|Hl]; cbn [rbind] in Hx; try (injection Hx as <-; destruct Hin; fail); [|destruct Hl].
    cbn [green_text el_off] in Hx. apply rbind_ok in Hx as (o & Hu & Hx). destruct o as [[o body]|]; [|injection Hx as <-; destruct Hin].
    apply rbind_ok in Hx as (_ & _ & Hx). apply rbind_ok in Hx as (_ & _ & Hx). injection Hx as <-.
    assert (Hb : ~ half_bracket x) by (apply HB; rewrite (root_leaves _ _ _ _ H), Hrt; apply in_app_iff; right; now left).
    destruct (unquote_piece _ _ _ Hu Hb) as (u & v & E & Hu').
    destruct (unescape_piece (S (length body)) body [] [] (off + o) 0 e eq_refl Hin) as (p & m & q & E2 & S1 & S2).
    cbn [app] in E2. rewrite app_nil_r in E2. destruct Hs as (ta & tb & Et & Ho). cbn [el_green el_off green_text flat_map] in Et, Ho. rewrite app_nil_r in Et.
    exists (ta ++ u ++ p), m, (q ++ v ++ tb). split; [rewrite Et, E, E2, <- !app_assoc; reflexivity|].
    rewrite S1, S2, !blen_app, Ho, Hu'. split; lia.
Qed.

(** Every error reported for a text covers whole characters of the text. *)
Theorem C71_errors_are_pieces : forall t p e, source_file_parse t = Ok p -> In e (pa_errors p) ->
  In e (match parse_text t with Ok (_, es) => es | _ => [] end) \/ brackets_complete (pa_green p) ->
  piece t (e_range e).
Proof.
  intros t p e H He Hor. destruct (source_file_inv _ _ H) as (ls & fs & a & v & Hp & Hv & Hg & Ee). rewrite Hg in Hor.
  destruct Hor as [Hin|HB]; [rewrite (parsed_text _ _ _ _ Hp) in Hin; exact (parsed_error_piece _ _ _ _ _ Hp Hin)|].
  rewrite Ee in He. apply in_app_iff in He as [He|He]; [exact (parsed_error_piece _ _ _ _ _ Hp He)|exact (parsed_validate_piece _ _ _ _ _ _ Hp Hv He HB)].
Qed.
Print Assumptions C71_errors_are_pieces.
(** A text without lexical errors has complete brackets. *)
Theorem C71_brackets_complete : forall t p toks, source_file_parse t = Ok p -> tokenize t = Ok (toks, []) -> brackets_complete (pa_green p).
Proof.
  intros t p toks H T x Hx Hb. destruct (source_file_inv _ _ H) as (ls & fs & a & v & Hp & _ & Hg & _). rewrite Hg, (root_leaves _ _ _ _ Hp) in Hx.
  rewrite (pd_lexer _ _ _ _ Hp) in T. injection T as _ Hnil. apply errors_of_nil in Hnil; [|now rewrite !map_length].
  unfold rt_of in Hx. apply in_map_iff in Hx as ([[k' e'] x'] & E & Hin'). cbn [fst snd] in E. injection E as -> ->.
  destruct (Lexed_in _ _ _ _ _ (pd_lex _ _ _ _ Hp) Hin') as [b Hs]. apply (half_bracket_err _ _ _ Hs Hb). rewrite Forall_forall in Hnil. apply (Hnil e').
  apply in_map_iff. exists (KStr, e', x). auto.
Qed.
Print Assumptions C71_brackets_complete.

(** ** What the client shows *)
(** The two positions of [d], read as LSP positions of [t], enclose the piece of [t] the error is about. *)
Definition underlines (t : text) (e : syntax_error) (d : lsp_diagnostic) : Prop :=
  exists a m b, t = a ++ m ++ b /\ r_start (e_range e) = blen a /\ r_end (e_range e) = blen (a ++ m) /\
    denotes (fst (ld_range d)) a /\ denotes (snd (ld_range d)) (a ++ m).
Definition shows (d : lsp_diagnostic) (e : syntax_error) : Prop :=
  ld_message d = String.append "Syntax Error: " (e_msg e) /\ ld_severity d = Some 1 /\ ld_source d = Some "lua-analyzer"%string.

Lemma publish_inv t ds : publish_diagnostics t = Ok ds -> exists li p, li_new t = Ok li /\ source_file_parse t = Ok p /\
  Forall2 (fun d e => shows d e /\ (piece t (e_range e) -> underlines t e d)) ds (firstn 128 (pa_errors p)).
Proof.
  intros H. unfold publish_diagnostics in H. apply rbind_ok in H as (li & Hli & H). apply rbind_ok in H as (l & Hl & H).
  unfold ide_diagnostics in Hl. apply rbind_ok in Hl as (p & Hp & Hl).
  match type of Hl with Ok ?m = _ => assert (El : l = m) by congruence; subst l; clear Hl end. exists li, p. split; [exact Hli|]. split; [exact Hp|].
  revert ds H. induction (firstn 128 (pa_errors p)) as [|e es IH]; intros ds H; cbn [map lsp_diags] in H; [injection H as <-; constructor|].
  apply rbind_ok in H as (r & Hr & H). apply rbind_ok in H as (ds' & Hds & H). injection H as <-. constructor; [|exact (IH _ Hds)].
  split; [repeat split|]. intros (a & m & b & E & S1 & S2). exists a, m, b. split; [exact E|]. split; [exact S1|]. split; [exact S2|]. cbn [ld_range].
  unfold to_proto_range in Hr. cbn [id_range] in Hr. rewrite S1, S2 in Hr.
  assert (E' : t = (a ++ m) ++ b) by (rewrite <- app_assoc; exact E).
  destruct (C42_position t li a (m ++ b) Hli E) as (p1 & P1 & D1 & _). destruct (C42_position t li (a ++ m) b Hli E') as (p2 & P2 & D2 & _).
  rewrite P1, P2 in Hr. cbn [rbind] in Hr. injection Hr as <-. auto.
Qed.

(** The editor's view: after the pending task has run, a document the client has open and never
    closed carries the first 128 errors of its current text, in order, each under the right piece. *)
Theorem C71_editor_shows : forall c es g d p v t, run (g_new c) (es ++ [ETask]) = Ok g -> ClientRun no_docs es d -> d p = Some (v, t) -> ~ closed_in es p ->
  exists pr ds, source_file_parse t = Ok pr /\ last_published p (g_sent g) = Some ds /\
    Forall2 (fun x e => shows x e) ds (firstn 128 (pa_errors pr)) /\
    (brackets_complete (pa_green pr) -> Forall2 (fun x e => underlines t e x) ds (firstn 128 (pa_errors pr))).
Proof.
  intros c es g d p v t H C Hd N. destruct (C52_never_closed _ _ _ _ _ _ _ H C Hd N) as (ds & P & L). destruct (publish_inv _ _ P) as (li & pr & _ & Hp & HF).
  exists pr, ds. split; [exact Hp|]. split; [exact L|]. split; [clear -HF; induction HF; constructor; tauto|]. intros HB.
  assert (HA : Forall (fun e => piece t (e_range e)) (firstn 128 (pa_errors pr))).
  { apply Forall_forall. intros e He. apply (C71_errors_are_pieces t pr e Hp); [|now right]. rewrite <- (firstn_skipn 128 (pa_errors pr)). apply in_app_iff. now left. }
  clear -HF HA. induction HF as [|x e ds l [_ Hx] HF IH]; constructor; inversion_clear HA; auto.
Qed.
Print Assumptions C71_editor_shows.

(** A valid program (in the sense of C20) shows nothing. *)
Theorem C71_valid_program_is_clean : forall c es g d p v t ps toks b, run (g_new c) (es ++ [ETask]) = Ok g -> ClientRun no_docs es d -> d p = Some (v, t) ->
  spaced ps t toks -> map fst ps = block_w b -> block_ok lua b = true -> block_same b = true ->
  fits_u32 (S (blen t)) = true -> last_published p (g_sent g) = Some [].
Proof.
  intros c es g d p v t ps toks b H C Hd Sp Hw Ho Hs F. destruct (C52_published_partial _ _ _ _ _ _ _ H C Hd) as (ds & P & [L|[L _]]); [|exact L].
  destruct (publish_inv _ _ P) as (li & pr & _ & Hp & HF). destruct (C20_text_partial ps t toks b Sp Hw Ho Hs F) as (pr' & Hp' & E & _).
  rewrite Hp in Hp'. injection Hp' as <-. rewrite E in HF. inversion HF. subst. exact L.
Qed.
Print Assumptions C71_valid_program_is_clean.

(** A run: the document has an error behind a character of three bytes, and one at its end. *)
Definition C71_text : text := txt "x = '" ++ [8364%N] ++ txt "\q' +".
Definition C71_events : list event := [ELsp (MNot (NOpen (UFile "/a"%string) 1%Z (txt "x"))); ETask;
  ELsp (MNot (NChange (UFile "/a"%string) 2%Z [mkChange None C71_text]))].
Example C71_run : ClientRun no_docs C71_events (dset (dset no_docs "/a"%string (Some (1%Z, txt "x"))) "/a"%string (Some (2%Z, C71_text))) /\ ~ closed_in C71_events "/a"%string /\
  match run (g_new []) (C71_events ++ [ETask]) with
  | Ok g => match last_published "/a"%string (g_sent g) with
            | Some ds => map ld_range ds = [(mkLC 0 11, mkLC 0 11); (mkLC 0 6, mkLC 0 8)] | None => False end
  | _ => False end.
Proof.
  split; [|split; [intros [H|[H|[H|[]]]]; discriminate|vm_compute; reflexivity]].
  eapply CR_cons; [apply Cl_open|]. eapply CR_cons; [apply Cl_other; exact I|]. eapply CR_cons; [|apply CR_nil].
  apply (Cl_change _ _ _ _ 1%Z (txt "x") C71_text); [reflexivity|]. apply (Chs_cons _ _ C71_text); [reflexivity|apply Ch_full|apply Chs_nil].
Qed.
Example C71_clean : match run (g_new []) ([ELsp (MNot (NOpen (UFile "/a"%string) 1%Z (txt "return x ")))] ++ [ETask]) with
  | Ok g => last_published "/a"%string (g_sent g) = Some [] | _ => False end.
Proof. vm_compute. reflexivity. Qed.
