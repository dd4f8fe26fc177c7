(** PropsSuffix.v — C80: what stands after a top level statement is parsed as if it stood alone, whatever precedes
    it, errors included. Vocabulary: [file] (PropsLocal.v) is the tree of a file with the given children of the top
    block; [green_text] (Tree.v) the text of a tree; [shift_err] (LexSpec.v) moves an error. *)
From Coq Require Import Permutation.
From Verif Require Import Base SyntaxKind TokenSet Lexer LexSpec LexerDirect LexerProofs LexerNum BindingPowers Parser Grammar
  Event EventProofs Tree TreeSink ParserTree ParserTotal SinkProofs Ast ParseSpec ParseProofs StrictTree GrammarSpec
  Validation ValidProofs PropsLexer PropsParser LuaSyntax LuaDialect LuaRun LuaComplete LuaTree PropsLua ParserFuel LocalProofs LocalDress PropsLocal DressProofs SuffixProofs.

(** The kind of the first child that is not whitespace or a comment. *)
Fixpoint first_code (cs : list green) : option kind :=
  match cs with
  | [] => None
  | g :: cs => if is_trivia (green_kind g) then first_code cs else Some (green_kind g)
  end.
Definition text_of (cs : list green) : text := flat_map green_text cs.

Lemma first_toks tr cs : forallb triv tr = true -> first_code (map gtok tr ++ cs) = first_code cs.
Proof. induction tr as [|p tr IH]; intros H; [reflexivity|]. cbn [forallb map app first_code] in *. apply andb_true_iff in H as [H1 H2]. unfold triv in H1. cbn [gtok green_kind]. rewrite H1. exact (IH H2). Qed.
Lemma first_semi f pos rt a : Dress f pos rt a -> map fst (nontriv rt) = fkinds f -> semi_first f -> first_code (all_green a) = Some KSemicolon.
Proof.
  intros D E S. destruct f as [|[k| | |] f]; try destruct S. destruct k; try destruct S. inversion D as [|k' fs' pos' rt' tr p rest b He Hd| | |]; subst.
  destruct (eat_triv _ _ _ He) as [T P]. unfold all_green. cbn [dr_green dr_left]. rewrite <- !app_assoc, first_toks by exact T. cbn [app first_code gtok green_kind].
  destruct (eat_nontriv _ _ _ He) as [E1 _]. rewrite E1 in E. cbn [nontriv filter] in E. rewrite P in E. cbn [negb map] in E. rewrite fkinds_cons in E. cbn [pkinds app] in E. injection E as Ek _.
  rewrite Ek. reflexivity.
Qed.
Lemma parsed_neof t ls fs a : parsed t ls fs a -> NEof (map fst (nontriv (rt_of ls))).
Proof.
  intros P X. apply in_map_iff in X as (p & Hp & Hin). apply filter_In in Hin as [Hin _]. pose proof (Lexed_ok _ _ (pd_lex _ _ _ _ P)) as Hok.
  rewrite Forall_forall in Hok. destruct (Hok p Hin) as [Hk _]. rewrite Hp in Hk. now apply lexer_no_eof.
Qed.
Lemma desc_end g : forall off e, In e (descendants_at off g) -> el_off e + green_len (el_green e) <= off + green_len g.
Proof.
  induction g as [k cs IH|k x] using green_ind2; intros off e H; [|destruct H]. rewrite descendants_node in H. destruct H as [<-|H]; [cbn; lia|].
  assert (G : el_off e + green_len (el_green e) <= off + glen cs); [|unfold glen, green_len in *; cbn [green_text]; exact G].
  revert off H. induction IH as [|c cs Hc _ IHc]; intros off H; [destruct H|]. cbn [descs] in H. apply in_app_iff in H as [H|H].
  - apply Hc in H. unfold glen. cbn [flat_map]. rewrite blen_app. unfold green_len in *. lia.
  - apply IHc in H. unfold glen in *. cbn [flat_map]. rewrite blen_app. unfold green_len in *. lia.
Qed.
Lemma descs_end cs : forall off e, In e (descs off cs) -> el_off e + green_len (el_green e) <= off + glen cs.
Proof.
  induction cs as [|c cs IH]; intros off e H; [destruct H|]. cbn [descs] in H. apply in_app_iff in H as [H|H].
  - apply desc_end in H. unfold glen. cbn [flat_map]. rewrite blen_app. unfold green_len in *. lia.
  - apply IH in H. unfold glen in *. cbn [flat_map]. rewrite blen_app. unfold green_len in *. lia.
Qed.
(** An error of a node starts in the node and ends at most one byte after it. *)
Lemma validate_node_end t ls fs a n xs e : parsed t ls fs a -> In n (el_descendants (root_elem (root_of a))) -> validate_node n = Ok xs -> In e xs ->
  r_start (e_range e) <= r_end (e_range e) /\ r_end (e_range e) <= S (el_off n + green_len (el_green n)).
Proof.
  intros H Hn Hx Hin. unfold validate_node in Hx. destruct (el_kind n) eqn:Hk; try (injection Hx as <-; destruct Hin; fail).
  - injection Hx as <-. apply validate_assign_range in Hin. split; lia.
  - injection Hx as <-. apply validate_expr_stmt_range in Hin. split; lia.
  - destruct (parsed_literal _ _ _ _ _ H Hn Hk) as (k & x & c & r & Hl & Hg & Hrt & Hoff).
    unfold validate_literal, literal_kind_of in Hx. destruct n as [off g]. cbn [el_green el_off] in *. subst g.
    rewrite (literal_token_one _ _ _ (literal_nontriv _ Hl)) in Hx. cbn [rbind] in Hx.
    unfold el_kind in Hx. cbn [el_green green_kind] in Hx. cbn in Hl.
    repeat destruct Hl as [<-|Hl]; cbn [rbind] in Hx; try (injection Hx as <-; destruct Hin; fail); [|destruct Hl].
    cbn [green_text el_off] in Hx. apply rbind_ok in Hx as (o & Hu & Hx). destruct o as [[o body]|]; [|injection Hx as <-; destruct Hin].
    apply rbind_ok in Hx as (_ & _ & Hx). apply rbind_ok in Hx as (_ & _ & Hx). injection Hx as <-.
    pose proof (unescape_range (S (length body)) 0 (off + o) body) as HR. rewrite Forall_forall in HR. specialize (HR _ Hin). cbn beta in HR.
    destruct (unquote_len _ _ _ Hu) as (U1 & U2 & U3). unfold green_len. cbn [green_text flat_map]. rewrite app_nil_r. split; lia.
Qed.

Lemma same_tail {A} (a b x y : list A) : a ++ b = x ++ y -> length b = length y -> a = x.
Proof.
  revert x. induction a as [|z a IH]; intros [|z' x] E L; cbn [app] in E; try reflexivity.
  - apply (f_equal (@length A)) in E. cbn [length] in E. rewrite app_length in E. lia.
  - apply (f_equal (@length A)) in E. cbn [length] in E. rewrite app_length in E. lia.
  - injection E as -> E. f_equal. exact (IH _ E L).
Qed.
(** Everything about the cut. *)
Definition before (a1 : dressed) (r1 : list rtok) (l : list lexed_tok) (u1 : list syntax_error) : list syntax_error :=
  (dr_errs a1 ++ errors_of 0 (map mktok r1) (firstn (length r1) (map lt_err l))) ++ u1.
Lemma suffix_cut t l f a v cs1 cs2 f1 f2 a1 a2 t0 rt2 p2 : parsed t l f a -> validate (root_elem (root_of a)) = Ok v ->
  dcut f 0 (rt_of l) a cs1 cs2 f1 f2 a1 a2 t0 rt2 -> all_green a = cs1 ++ cs2 -> ~ semi_first f2 -> source_file_parse (text_of cs2) = Ok p2 ->
  pa_green p2 = file cs2 /\ exists u1, validate_list (descs 0 cs1) = Ok u1 /\
    Permutation ((dr_errs a ++ errors_of 0 (map lt_tok l) (map lt_err l)) ++ v) (before a1 (dr_used a1 ++ t0) l u1 ++ map (shift_err (blen (text_of cs1))) (pa_errors p2)) /\
    Forall (fun e => r_start (e_range e) <= r_end (e_range e) /\ r_end (e_range e) <= S (blen (text_of cs1))) (before a1 (dr_used a1 ++ t0) l u1).
Proof.
  intros P V C GA NS S2. destruct (source_file_inv _ _ S2) as (l2 & g & b & v2 & P2 & V2 & GP2 & X2).
  pose proof (parsed_Dress _ _ _ _ P) as D. destruct C as [C1 C2 C3 C4 C5 C6 C7 C8].
  pose proof (Dress_used _ _ _ _ C2) as U1. pose proof (Dress_used _ _ _ _ C6) as U2.
  set (r1 := dr_used a1 ++ t0) in *. assert (RT : rt_of l = r1 ++ rt2) by (unfold r1; rewrite U1, C3, app_assoc; reflexivity).
  assert (L2 : texts rt2 = text_of cs2).
  { unfold text_of. rewrite green_texts_leaves, C7. unfold all_green. rewrite leaves_app, leaves_gtok, (Dress_leaves _ _ _ _ C6), <- U2. reflexivity. }
  assert (L1 : texts r1 = text_of cs1).
  { unfold text_of. rewrite green_texts_leaves, C5, leaves_app, leaves_gtok, (Dress_leaves _ _ _ _ C2). reflexivity. }
  assert (TT : t = texts r1 ++ texts rt2) by (rewrite <- texts_app, <- RT, rt_of_text; exact (Lexed_text _ _ (pd_lex _ _ _ _ P))).
  (* the tokens *)
  pose proof (pd_lexer _ _ _ _ P) as T. rewrite <- (rt_of_toks l), RT, map_app in T.
  assert (SL : forall r, blen (texts r) = list_sum (map t_len (map mktok r))).
  { clear. induction r as [|q r IH]; [reflexivity|]. unfold texts in *. cbn [flat_map map list_sum fold_right mktok t_len]. rewrite blen_app, IH. destruct q. reflexivity. }
  destruct (C10_resume _ _ _ _ _ _ T TT (SL r1)) as (x1 & x2 & T2 & EX). rewrite L2 in T2. pose proof (pd_lexer _ _ _ _ P2) as T2'. rewrite T2 in T2'.
  assert (RT2 : rt_of l2 = rt2).
  { apply lexemes_unique; [rewrite rt_of_toks; congruence|]. rewrite rt_of_text, L2. symmetry. exact (Lexed_text _ _ (pd_lex _ _ _ _ P2)). }
  assert (EX2 : x2 = errors_of 0 (map lt_tok l2) (map lt_err l2)) by congruence.
  (* the forest *)
  assert (KK : map fst (nontriv (rt_of l)) = fkinds f1 ++ fkinds f2) by (rewrite <- (pd_kinds _ _ _ _ P), C1; unfold fkinds; now rewrite flat_map_app).
  pose proof (Dress_kinds _ _ _ _ _ C2 KK) as K2. rewrite C3, nontriv_split in K2.
  assert (N0 : nontriv t0 = []). { clear -C4. induction t0 as [|q t0 IH]; [reflexivity|]. cbn [forallb nontriv filter] in *. apply andb_true_iff in C4 as [-> C4]. exact (IH C4). }
  rewrite N0 in K2. cbn [app] in K2.
  assert (EF : g = f2).
  { pose proof (pd_run _ _ _ _ P) as R1. rewrite C1 in R1. pose proof (pd_run _ _ _ _ P2) as R2. rewrite RT2, K2 in R2.
    exact (root_cut _ _ _ _ _ _ _ (parsed_neof _ _ _ _ P) R1 NS KK R2). }
  subst g. pose proof (parsed_Dress _ _ _ _ P2) as D2. rewrite RT2 in D2. apply (Dress_shift (blen (texts r1))) in D2.
  cbn [Nat.add] in D2, C6. pose proof (Dress_det _ _ _ _ C6 _ D2) as E2.
  assert (E3 : all_green a2 = all_green b) by (rewrite E2; reflexivity).
  assert (E4 : dr_errs a2 = map (shift_err (blen (texts r1))) (dr_errs b)) by (rewrite E2; reflexivity).
  split.
  { rewrite GP2. unfold root_of, file. rewrite C7, E3. reflexivity. }
  (* the errors *)
  apply validate_root in V2. pose proof V as V0. apply validate_root in V. rewrite <- descs_all, GA, descs_app in V. cbn [Nat.add] in V.
  apply validate_list_app in V as (u1 & u2 & VU1 & VU2 & EV).
  assert (BG : glen cs1 = blen (texts r1)) by (unfold glen; rewrite L1; reflexivity).
  rewrite <- (descs_all 0 b), <- E3, <- C7 in V2.
  change (glen cs1) with (0 + glen cs1) in VU2. rewrite descs_sh in VU2. pose proof (validate_list_sh _ _ _ _ VU2 V2) as EU. cbn [Nat.add] in EU.
  (* the lexical errors *)
  assert (LL : length (map lt_err l) = length r1 + length rt2) by (rewrite map_length, <- app_length, <- RT; unfold rt_of; now rewrite map_length).
  assert (EX1 : errors_of 0 (map mktok r1) (firstn (length r1) (map lt_err l)) = x1).
  {
      assert (EL : errors_of 0 (map mktok r1 ++ map mktok rt2) (map lt_err l) = x1 ++ map (shift_err (blen (texts r1))) x2).
      { exact EX. }
      rewrite <- (firstn_skipn (length r1) (map lt_err l)) in EL.
      rewrite errors_of_app in EL by (rewrite map_length, firstn_length, LL; lia).
      rewrite <- SL in EL. cbn [Nat.add] in EL. change (blen (texts r1)) with (0 + blen (texts r1)) in EL. rewrite errors_of_shift in EL. cbn [Nat.add] in EL.
      assert (EN : length (map (shift_err (blen (texts r1))) (errors_of 0 (map mktok rt2) (skipn (length r1) (map lt_err l)))) = length (map (shift_err (blen (texts r1))) x2)).
      { rewrite !map_length. rewrite EX2, <- rt_of_toks, RT2. 
        assert (SK : Lexed (texts rt2) l2) by (rewrite L2; exact (pd_lex _ _ _ _ P2)).
        f_equal. f_equal.
        pose proof (pd_lex _ _ _ _ P) as LX. rewrite <- (firstn_skipn (length r1) l) in LX. destruct (Lexed_app_inv _ _ _ LX) as (b' & Hb & Hlb).
        assert (RF : rt_of (firstn (length r1) l) = r1). { transitivity (firstn (length r1) (rt_of l)); [unfold rt_of; symmetry; apply firstn_map|]. rewrite RT, firstn_app, Nat.sub_diag, firstn_all. cbn [firstn]. apply app_nil_r. }
        rewrite <- rt_of_text, RF, TT in Hb. apply app_inv_head in Hb. subst b'.
        rewrite <- (Lexed_fun _ _ Hlb _ SK). now rewrite <- skipn_map. }
      apply same_tail in EL; [|exact EN].
      exact EL. }
  unfold before. rewrite <- L1, EX1. exists u1. split; [exact VU1|]. split.
  - rewrite X2, C8, E4, <- EX2, <- (rt_of_toks l), RT, map_app, EX.
    rewrite EV, EU, BG, !map_app. clear.
    set (A := dr_errs a1). set (B := map (shift_err (blen (texts r1))) (dr_errs b)). set (C := map (shift_err (blen (texts r1))) x2). set (E := map (shift_err (blen (texts r1))) v2).
    rewrite <- !app_assoc. apply Permutation_app_head. rewrite (Permutation_app_swap_app B x1). apply Permutation_app_head.
    rewrite !(app_assoc B C). rewrite (Permutation_app_swap_app (B ++ C) u1). reflexivity.
  - apply Forall_app. split; [apply Forall_app; split|].
    + pose proof (Dress_used _ _ _ _ C2) as UU. pose proof (Dress_glen _ _ _ _ C2) as GL.
      assert (NN : forall e, In e (dr_errs a1) -> r_start (e_range e) <= r_end (e_range e) /\ r_end (e_range e) <= blen (texts (dr_used a1))).
      { clear -C2. assert (Q : forall f pos rt a, Dress f pos rt a -> Forall (fun e => r_start (e_range e) <= r_end (e_range e) /\ r_end (e_range e) <= pos + blen (texts (dr_used a))) (dr_errs a)).
        { clear. induction 1 as [pos rt|k fs pos rt tr p rest b He Hd IH|e fs pos rt b Hd IH|e fs gs pos rt tr rest a b He Ha IHa Hb IHb|k fs gs pos rt tr rest a b He Ha IHa Hb IHb]; cbn [dr_errs dr_used].
          - constructor.
          - eapply Forall_impl; [|exact IH]. cbn beta. intros e [A B]. split; [exact A|]. rewrite (texts_app (tr ++ [p])), blen_app. lia.
          - constructor; [cbn; lia|exact IH].
          - apply Forall_app. split; [apply Forall_app; split|].
            + eapply Forall_impl; [|exact IHa]. cbn beta. intros x [A B]. split; [exact A|]. rewrite !texts_app, !blen_app. lia.
            + constructor; [|constructor]. cbn [e_range r_start r_end]. rewrite !texts_app, !blen_app. lia.
            + eapply Forall_impl; [|exact IHb]. cbn beta. intros x [A B]. split; [exact A|]. rewrite (texts_app (tr ++ dr_used a)), (blen_app _ (texts (dr_used b))). lia.
          - apply Forall_app. split.
            + eapply Forall_impl; [|exact IHa]. cbn beta. intros x [A B]. split; [exact A|]. rewrite !texts_app, !blen_app. lia.
            + eapply Forall_impl; [|exact IHb]. cbn beta. intros x [A B]. split; [exact A|]. rewrite (texts_app (tr ++ dr_used a)), (blen_app _ (texts (dr_used b))). lia. }
        intros e He. pose proof (Q _ _ _ _ C2) as F. rewrite Forall_forall in F. exact (F _ He). }
      apply Forall_forall. intros e He. destruct (NN e He) as [A B]. split; [exact A|]. unfold r1. rewrite texts_app, blen_app. lia.
    + rewrite <- EX1. apply Forall_forall. intros e He.
      pose proof (errors_of_bnd r1 [] (firstn (length r1) (map lt_err l)) e) as Q. cbn [texts blen] in Q. destruct Q as (B1 & B2 & B3).
      { rewrite firstn_length, LL. lia. }
      { exact He. }
      split; [exact B3|]. destruct B2 as (c & r & Ec & ->). cbn [app] in Ec. rewrite Ec, texts_app, blen_app. lia.
    + apply Forall_forall. intros e He. destruct (validate_list_in _ _ VU1 _ He) as (n & xs & Hn & Hx & Hin).
      assert (HD : In n (el_descendants (root_elem (root_of a)))).
      { rewrite root_descs. apply in_app_iff. right. rewrite <- descs_all, GA, descs_app. apply in_app_iff. now left. }
      destruct (validate_node_end _ _ _ _ _ _ _ P HD Hx Hin) as [A B]. split; [exact A|]. pose proof (descs_end _ _ _ Hn). lia.
Qed.

Lemma suffix_all t p cs1 cs2 p2 : source_file_parse t = Ok p -> pa_green p = file (cs1 ++ cs2) -> first_code cs2 <> Some KSemicolon ->
  source_file_parse (text_of cs2) = Ok p2 ->
  pa_green p2 = file cs2 /\ exists errs1, Permutation (pa_errors p) (errs1 ++ map (shift_err (blen (text_of cs1))) (pa_errors p2)) /\
    Forall (fun e => r_start (e_range e) <= r_end (e_range e) /\ r_end (e_range e) <= S (blen (text_of cs1))) errs1.
Proof.
  intros S1 G NF S2. destruct (source_file_inv _ _ S1) as (l & f & a & v & P & V & GP & X).
  rewrite GP in G. unfold root_of, file in G. assert (GA : all_green a = cs1 ++ cs2) by (unfold all_green; congruence).
  pose proof (parsed_Dress _ _ _ _ P) as D.
  destruct (Dress_cut _ _ _ _ D (stmts_placed _ (pd_tree _ _ _ _ P)) (pd_left _ _ _ _ P) _ _ GA) as (f1 & f2 & a1 & a2 & t0 & rt2 & C).
  assert (NS : ~ semi_first f2).
  { destruct C as [C1 C2 C3 C4 C5 C6 C7 C8].
    assert (KK : map fst (nontriv (rt_of l)) = fkinds f1 ++ fkinds f2) by (rewrite <- (pd_kinds _ _ _ _ P), C1; unfold fkinds; now rewrite flat_map_app).
    pose proof (Dress_kinds _ _ _ _ _ C2 KK) as K2. rewrite C3, nontriv_split in K2.
    assert (N0 : nontriv t0 = []). { clear -C4. induction t0 as [|q t0 IH]; [reflexivity|]. cbn [forallb nontriv filter] in *. apply andb_true_iff in C4 as [-> C4]. exact (IH C4). }
    rewrite N0 in K2. cbn [app] in K2. intros NS; apply NF; rewrite C7; exact (first_semi _ _ _ _ C6 K2 NS). }
  destruct (suffix_cut _ _ _ _ _ _ _ _ _ _ _ _ _ _ P V C GA NS S2) as (A & u1 & _ & B & F). split; [exact A|]. eexists. split; [rewrite X; exact B|exact F].
Qed.

(** ** The rest of a file *)
(** The top level of a file is cut between two children (anywhere but just before the [;] that belongs to a
    statement): what follows the cut, parsed on its own, gives exactly these children, and its errors are those of the
    whole file that do not belong to the part before the cut. *)
Theorem C80_rest_alone : forall t p cs1 cs2 p2, source_file_parse t = Ok p -> pa_green p = file (cs1 ++ cs2) -> first_code cs2 <> Some KSemicolon ->
  source_file_parse (text_of cs2) = Ok p2 ->
  pa_green p2 = file cs2 /\
  exists errs1, Permutation (pa_errors p) (errs1 ++ map (shift_err (blen (text_of cs1))) (pa_errors p2)) /\
    Forall (fun e => r_start (e_range e) <= r_end (e_range e) /\ r_end (e_range e) <= S (blen (text_of cs1))) errs1.
Proof. exact suffix_all. Qed.
Print Assumptions C80_rest_alone.

(** No file starts with the [;] of a statement. *)
Lemma never_first t p cs : source_file_parse t = Ok p -> pa_green p = file cs -> first_code cs <> Some KSemicolon.
Proof.
  intros S G H. destruct (source_file_inv _ _ S) as (l & f & a & v & P & _ & GP & _). rewrite GP in G. unfold root_of, file in G.
  assert (GA : all_green a = cs) by (unfold all_green; congruence). clear G GP S. subst cs.
  pose proof (parsed_Dress _ _ _ _ P) as D. pose proof (pd_tree _ _ _ _ P) as T. pose proof (pd_left _ _ _ _ P) as L. clear P.
  assert (K : exists g h, f = g ++ h /\ (g = [] /\ h = [] \/ Tree false NStmt g /\ existsb has_tok g = true)).
  { inversion T; subst; [exists [], []; auto|]. eexists _, _. split; [reflexivity|]. right. split; assumption. }
  destruct K as (g & h & -> & [[-> ->]|[K1 K2]]).
  - inversion D; subst. unfold all_green in H. cbn [dr_green dr_left app] in *. rewrite <- (app_nil_r (map gtok (rt_of l))) in H. rewrite first_toks in H by (now apply nontriv_nil). discriminate H.
  - assert (KK : (exists k fs, g = [PNode k fs] /\ k <> KSemicolon /\ is_trivia k = false) \/ (exists fs e, g = [PErrN fs e])).
    { inversion K1; subst; try (left; eexists _, _; split; [reflexivity|]; split; [discriminate|reflexivity]).
      match goal with I : is_err _ _ |- _ => destruct I as (_ & e & [->|(ks & ->)]) end; [discriminate K2|right; eauto]. }
    assert (Q : forall tr x r, eat (rt_of l) = (tr, x) -> first_code (((map gtok tr ++ [r]) ++ dr_green a) ++ map gtok (dr_left a)) = first_code (r :: dr_green a ++ map gtok (dr_left a))).
    { intros tr x r E. rewrite <- !app_assoc. cbn [app]. apply first_toks. pose proof (eat_triv _ _ _ E) as X. destruct x; apply X. }
    assert (Q' : forall tr x r gs ls, eat (rt_of l) = (tr, x) -> is_trivia (green_kind r) = false -> first_code (((map gtok tr ++ [r]) ++ gs) ++ map gtok ls) = Some (green_kind r)).
    { intros tr x r gs ls E R. rewrite <- !app_assoc. cbn [app]. rewrite first_toks; [cbn [first_code]; now rewrite R|]. pose proof (eat_triv _ _ _ E) as X. destruct x; apply X. }
    destruct KK as [(k & fs & -> & K3 & K4)|(fs & e & ->)]; cbn [app] in D; inversion D; subst; unfold all_green in H; cbn [dr_green dr_left] in H.
    + match goal with E : eat _ = _ |- _ => rewrite (Q' _ _ _ _ _ E) in H by exact K4 end. cbn [green_kind] in H. congruence.
    + match goal with E : eat _ = _ |- _ => rewrite (Q' _ _ _ _ _ E) in H by reflexivity end. cbn [green_kind] in H. congruence.
Qed.
(** The condition is exact. *)
Theorem C80_exactly : forall t p cs1 cs2 p2, source_file_parse t = Ok p -> pa_green p = file (cs1 ++ cs2) ->
  source_file_parse (text_of cs2) = Ok p2 -> (pa_green p2 = file cs2 <-> first_code cs2 <> Some KSemicolon).
Proof.
  intros t p cs1 cs2 p2 S G S2. split; [intros E; exact (never_first _ _ _ S2 E)|]. intros N. exact (proj1 (suffix_all _ _ _ _ _ S G N S2)).
Qed.
Print Assumptions C80_exactly.

(** Whatever precedes: two files that end with the same text, cut before it, agree on it, children and errors. *)
Theorem C80_whatever_precedes : forall t p cs1 cs2 t' p' cs1' cs2', source_file_parse t = Ok p -> source_file_parse t' = Ok p' ->
  pa_green p = file (cs1 ++ cs2) -> pa_green p' = file (cs1' ++ cs2') -> text_of cs2 = text_of cs2' ->
  first_code cs2 <> Some KSemicolon -> first_code cs2' <> Some KSemicolon -> fits_u32 (S (blen (text_of cs2))) = true ->
  cs2 = cs2' /\ exists errs1 errs1' errs2, Permutation (pa_errors p) (errs1 ++ map (shift_err (blen (text_of cs1))) errs2) /\
    Permutation (pa_errors p') (errs1' ++ map (shift_err (blen (text_of cs1'))) errs2).
Proof.
  intros t p cs1 cs2 t' p' cs1' cs2' S S' G G' E N N' F. destruct (C11_parse_total _ F) as (p2 & S2).
  destruct (suffix_all _ _ _ _ _ S G N S2) as (A & e1 & B & _). pose proof S2 as S2'. rewrite E in S2'.
  destruct (suffix_all _ _ _ _ _ S' G' N' S2') as (A' & e1' & B' & _). split; [unfold file in *; congruence|eauto 6].
Qed.
Print Assumptions C80_whatever_precedes.

(** A broken first statement, an unmatched [end], then [y = 1; z(] : the file is cut after [end]. *)
Example C80_case : exists p cs1 cs2 p2, source_file_parse (txt "x = = 2 end y = 1; z(") = Ok p /\ pa_green p = file (cs1 ++ cs2) /\
  text_of cs2 = txt " y = 1; z(" /\ length cs2 = 5 /\ length cs1 = 5 /\ first_code cs2 = Some KAssignStmt /\ source_file_parse (text_of cs2) = Ok p2 /\ pa_green p2 = file cs2 /\
  length (pa_errors p) = 5 /\ length (pa_errors p2) = 2.
Proof. eexists. eexists (firstn 5 _), (skipn 5 _), _. split; [vm_compute; reflexivity|]. cbn [pa_green pa_errors]. split; [rewrite firstn_skipn; reflexivity|]. vm_compute. repeat split. Qed.
