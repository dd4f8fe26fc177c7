(** PropsEdits.v — C92: edits are local. Two versions of a text that differ only between [a ++ m] and [c] have trees
    that differ only there, if both trees are cut at [c]. Vocabulary: [file], [cuts], [words] (PropsLocal.v),
    [text_of], [first_code] (PropsSuffix.v). *)
From Coq Require Import Permutation.
From Verif Require Import Base SyntaxKind TokenSet Lexer LexSpec LexerDirect LexerProofs LexerNum Parser Grammar Tree TreeSink Ast
  Validation ValidProofs PropsLexer PropsParser PropsTotal PropsLocal SuffixProofs PropsSuffix PropsPrefix.

Lemma words_nonempty m tm em : tokenize m = Ok (tm, em) -> words tm <> [] -> 0 < blen m.
Proof.
  intros T W. destruct m as [|ch m]; [|change (blen (ch :: m)) with (utf8_len ch + blen m); pose proof (utf8_len_pos ch); lia].
  exfalso. apply W. vm_compute in T. injection T as <- _. reflexivity.
Qed.
Lemma file_inj x y : file x = file y -> x = y.
Proof. unfold file. congruence. Qed.

Theorem C92_edits_are_local : forall a m b b' c toks r r' tm em p p' before middle after before_middle' after',
  cuts (a ++ m) (b ++ c) toks r -> cuts (a ++ m) (b' ++ c) toks r' -> tokenize m = Ok (tm, em) -> words tm <> [] ->
  source_file_parse ((a ++ m) ++ b ++ c) = Ok p -> source_file_parse ((a ++ m) ++ b' ++ c) = Ok p' ->
  pa_green p = file (before ++ middle ++ after) -> text_of before = a -> text_of after = c ->
  pa_green p' = file (before_middle' ++ after') -> text_of after' = c ->
  first_code (middle ++ after) <> Some KSemicolon -> first_code after <> Some KSemicolon -> first_code after' <> Some KSemicolon ->
  (exists middle', pa_green p' = file (before ++ middle' ++ after)) /\
  (forall e, r_start (e_range e) < blen a -> (In e (pa_errors p) <-> In e (pa_errors p'))) /\
  exists errs errs' errs_after,
    Permutation (pa_errors p) (errs ++ map (shift_err (blen (a ++ m ++ b))) errs_after) /\
    Permutation (pa_errors p') (errs' ++ map (shift_err (blen (a ++ m ++ b'))) errs_after).
Proof.
  intros a m b b' c toks r r' tm em p p' X Y Z W Z' CU CU' TM LW S S' G TX TZ G' TZ' N1 N2 N3. pose proof (words_nonempty _ _ _ TM LW) as PM.
  assert (T1 : text_of (X ++ Y) = a ++ m ++ b).
  { pose proof (C12_lossless _ _ S) as L. rewrite G, file_text, !text_of_app, TZ in L. rewrite app_assoc in L. rewrite app_assoc in L. apply app_inv_tail in L.
    rewrite text_of_app, L, app_assoc. reflexivity. }
  assert (T2 : text_of W = a ++ m ++ b').
  { pose proof (C12_lossless _ _ S') as L. rewrite G', file_text, !text_of_app, TZ' in L. rewrite app_assoc in L. apply app_inv_tail in L. rewrite L, app_assoc. reflexivity. }
  destruct (C81_beginning_kept _ _ _ _ _ _ _ _ _ _ _ _ _ CU CU' TM LW S S' G TX N1) as (cs2' & G2 & _).
  assert (F : fits_u32 (Datatypes.S (blen (text_of Z))) = true).
  { destruct CU as (x1 & x2 & _ & _ & T). apply (fits_le (blen ((a ++ m) ++ b ++ c))); [|exact (tokenize_ok_fits _ _ T)]. rewrite TZ, !blen_app. lia. }
  rewrite app_assoc in G. assert (EZ : text_of Z = text_of Z') by congruence.
  destruct (C80_whatever_precedes _ _ _ _ _ _ _ _ S S' G G' EZ N2 N3 F) as (-> & e1 & e1' & e2 & Q1 & Q2).
  rewrite <- app_assoc in G. split; [|split].
  - rewrite G' in G2. apply file_inj in G2. destruct (app_eq_app _ _ _ _ G2) as (l & [(-> & E2)|(-> & E2)]).
    + exists l. rewrite G', <- app_assoc. reflexivity.
    + exfalso. rewrite text_of_app, T2 in TX. apply (f_equal blen) in TX. rewrite !blen_app in TX. lia.
  - exact (C81_errors_kept _ _ _ _ _ _ _ _ _ _ _ _ _ CU CU' TM LW S S' G TX N1).
  - exists e1, e1', e2. rewrite T1 in Q1. rewrite T2 in Q2. auto.
Qed.
Print Assumptions C92_edits_are_local.

(** The second of three statements is edited, leaving an error in it; an unmatched [end] before and [g(] after are broken in both. *)
Definition kids (p : parse) : list green := match pa_green p with GNode _ [GNode _ cs] => cs | _ => [] end.
Example C92_case_cuts : exists toks r r' tm em,
  cuts (txt "f() end" ++ txt " y") (txt " = 1" ++ txt " break g( ") toks r /\ cuts (txt "f() end" ++ txt " y") (txt " = = h" ++ txt " break g( ") toks r' /\
  tokenize (txt " y") = Ok (tm, em) /\ words tm <> [].
Proof.
  do 5 eexists. split; [do 2 eexists; split; [vm_compute; reflexivity|]; split; vm_compute; reflexivity|].
  split; [do 2 eexists; split; [vm_compute; reflexivity|]; split; vm_compute; reflexivity|]. split; [vm_compute; reflexivity|vm_compute; discriminate].
Qed.
Example C92_case : match source_file_parse ((txt "f() end" ++ txt " y") ++ txt " = 1" ++ txt " break g( "), source_file_parse ((txt "f() end" ++ txt " y") ++ txt " = = h" ++ txt " break g( ") with
  | Ok p, Ok p' =>
    let before := firstn 3 (kids p) in let middle := firstn 2 (skipn 3 (kids p)) in let after := skipn 5 (kids p) in
    let before_middle' := firstn 7 (kids p') in let after' := skipn 7 (kids p') in
    pa_green p = file (before ++ middle ++ after) /\ text_of before = txt "f() end" /\ text_of after = txt " break g( " /\
    pa_green p' = file (before_middle' ++ after') /\ text_of after' = txt " break g( " /\
    first_code (middle ++ after) = Some KAssignStmt /\ first_code after = Some KBreakStmt /\ first_code after' = Some KBreakStmt
  | _, _ => False end.
Proof. vm_compute. repeat split. Qed.
