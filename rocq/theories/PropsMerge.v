(** PropsMerge.v — C36 about [Parse::reparse]: exactly which errors the result carries. *)
From Verif Require Import Base SyntaxKind TokenSet Lexer LexSpec LexerDirect LexerProofs LexerProps BindingPowers Parser Grammar
  Event EventProofs Tree TreeSink ParserTree SinkProofs GrammarSpec Ast ParseSpec ParseProofs DressProofs Validation TextEdit Ptr Reparse
  PropsTextEdit LineIndex PropsLineIndex PropsParser PropsReparse BlockSwap BlockDress PropsBlock.

(** * Specification *)
(** The part [w] of the text [t] at the range [r] that the edit falls in, and [w'], the part edited. *)
Definition edited_part (t : text) (edit : indel) (r : range) (w' : text) : Prop :=
  exists pre a d b suf, t = pre ++ (a ++ d ++ b) ++ suf /\ r = mkRange (blen pre) (blen pre + blen (a ++ d ++ b)) /\ w' = a ++ i_insert edit ++ b /\
    i_start edit = blen pre + blen a /\ i_end edit = blen pre + blen a + blen d.
(** The errors of a part on its own: of a token, or of a block. *)
Definition token_errors (w : text) (news : list syntax_error) : Prop :=
  exists k err, first_syntax_kind w = Ok (Some (k, err)) /\ news = match err with Some x => [x] | None => [] end.
Definition block_errors (w : text) (news : list syntax_error) : Prop :=
  exists ls lerrs fs rest a, Lexed w ls /\ tokenize w = Ok (map lt_tok ls, lerrs) /\ map fst (nontriv (rt_of ls)) = fkinds fs ++ rest /\ Tree false NStmts fs /\
    Dress [PNode KBlock fs] 0 (rt_of ls) a /\ news = dr_errs a ++ lerrs.
(** By how much the edit lengthens the text. *)
Definition growth (edit : indel) : nat := blen (i_insert edit) - (i_end edit - i_start edit).
Definition shrinks (edit : indel) : Prop := blen (i_insert edit) < i_end edit - i_start edit.

(** * Proofs *)
Lemma range_add_inv r n r' : range_add r n = Ok r' -> r' = mkRange (r_start r + n) (r_end r + n).
Proof.
  unfold range_add, uadd. destruct (fits_u32 (r_start r + n)); [|discriminate]. cbn [rbind]. destruct (fits_u32 (r_end r + n)); [|discriminate]. cbn [rbind]. congruence.
Qed.
Lemma offset_inv edit o : indel_offset edit = Ok o -> o = growth edit /\ ~ shrinks edit.
Proof.
  unfold indel_offset, size_of, usub, range_len, growth, shrinks, i_start, i_end. destruct (fits_u32 _); [|discriminate]. cbn [rbind]. match goal with |- context [?x <=? ?y] => destruct (Nat.leb_spec x y) as [L|L] end; [|discriminate]. intros E. injection E as <-. split; [reflexivity|lia].
Qed.
Lemma merge_old_inv olds r edit : forall l, merge_old olds r edit = Ok l ->
  l = flat_map (fun e => if r_end (e_range e) <=? r_start r then [e] else if r_end r <=? r_start (e_range e) then [moved (growth edit) e] else []) olds /\ (shrinks edit -> Forall (fun e => ~ after r e) olds).
Proof.
  induction olds as [|e olds IH]; intros l H; cbn [merge_old flat_map] in *; [injection H as <-; split; [reflexivity|constructor]|].
  destruct (Nat.leb_spec (r_end (e_range e)) (r_start r)) as [L|L].
  - apply rbind_ok in H as (l' & H' & H). injection H as <-. destruct (IH _ H') as [-> F]. split; [reflexivity|]. intros X. constructor; [unfold after; lia|auto].
  - destruct (Nat.leb_spec (r_end r) (r_start (e_range e))) as [L2|L2].
    + apply rbind_ok in H as (o & Ho & H). apply rbind_ok in H as (er & Her & H). apply rbind_ok in H as (l' & H' & H). injection H as <-. destruct (IH _ H') as [-> F]. apply offset_inv in Ho as [-> Ns]. apply range_add_inv in Her as ->. split; [reflexivity|contradiction].
    + destruct (IH _ H) as [-> F]. split; [reflexivity|]. intros X. constructor; [unfold after; lia|auto].
Qed.
Lemma merge_new_inv news r : forall l, merge_new news r = Ok l -> l = map (moved (r_start r)) news.
Proof.
  induction news as [|e news IH]; intros l H; cbn [merge_new map] in *; [now injection H as <-|]. apply rbind_ok in H as (er & Her & H). apply rbind_ok in H as (l' & H' & H). injection H as <-. apply range_add_inv in Her as ->. now rewrite (IH _ H').
Qed.
Lemma merge_inv olds news r edit l : merge_errors olds news r edit = Ok l -> l = merged olds news r (growth edit) /\ (shrinks edit -> Forall (fun e => ~ after r e) olds).
Proof.
  unfold merge_errors. intros H. apply rbind_ok in H as (x & Hx & H). apply rbind_ok in H as (y & Hy & H). injection H as <-. apply merge_old_inv in Hx as [-> F]. apply merge_new_inv in Hy as ->. split; [reflexivity|exact F].
Qed.
Lemma texts_leaves g : texts (green_leaves g) = green_text g.
Proof. symmetry. apply green_text_leaves. Qed.
Lemma part_of_leaves t root pre k a d b suf edit : green_text root = t -> green_leaves root = pre ++ (k, a ++ d ++ b) :: suf -> i_start edit = blen (texts pre) + blen a -> i_end edit = blen (texts pre) + blen a + blen d ->
  edited_part t edit (mkRange (blen (texts pre)) (blen (texts pre) + blen (a ++ d ++ b))) (a ++ i_insert edit ++ b).
Proof.
  intros <- E S1 S2. exists (texts pre), a, d, b, (texts suf). split; [|auto]. rewrite <- texts_leaves, E. rewrite texts_app. reflexivity.
Qed.

(** The errors of the result of [Parse::reparse]: those of a parse of the edited text; or the old
    errors before the reparsed part, the old errors after it moved by the growth of the text, and
    the errors of the part on its own, moved to its place. *)
Theorem C36_reparse_errors : forall t p edit q, source_file_parse t = Ok p -> reparse p edit = Ok q ->
  (exists t', indel_apply edit t = Ok t' /\ source_file_parse t' = Ok q) \/
  exists r w' news, edited_part t edit r w' /\ (token_errors w' news \/ block_errors w' news) /\ pa_errors q = merged (pa_errors p) news r (growth edit) /\
    (shrinks edit -> Forall (fun e => ~ after r e) (pa_errors p)).
Proof.
  intros t p edit q Hp Hr. pose proof (C12_lossless _ _ Hp) as Ht. unfold reparse in Hr. apply rbind_ok in Hr as (o & Ho & Hr). unfold incremental_reparse in Ho. apply rbind_ok in Ho as (o1 & H1 & Ho). destruct o1 as [[[g1 n1] r1]|].
  - right. apply rbind_ok in Ho as (l & Hm & Ho). injection Ho as <-. injection Hr as <-. cbn [pa_errors]. apply merge_inv in Hm as [-> F].
    destruct (C35_token_edit _ _ _ _ _ H1) as (pre & k & a & d & b & suf & E1 & _ & _ & S1 & S2 & _ & _ & -> & err & E2 & ->).
    eexists. eexists. eexists. split; [eapply part_of_leaves; eauto|]. split; [left; exists k, err; split; [exact E2|reflexivity]|]. split; [reflexivity|exact F].
  - apply rbind_ok in Ho as (o2 & H2 & Ho). destruct o2 as [[[g2 n2] r2]|].
    + right. apply rbind_ok in Ho as (l & Hm & Ho). injection Ho as <-. injection Hr as <-. cbn [pa_errors]. apply merge_inv in Hm as [-> F].
      destruct (reparse_block_inv _ _ _ _ _ H2) as (q & n & w' & ls & lerrs & fs & k0 & a & cs & Hq & _ & _ & Hw & L & _ & Tk & _ & Kk & T & _ & D & _ & _ & -> & _ & ->).
      destruct (path_leaves _ _ _ _ Hq) as (pre & suf & E1 & E2 & _).
      unfold get_text_after_edit in Hw. apply rbind_ok in Hw as (x & Hx & Hw). apply rbind_ok in Hw as (y & Hy & Hw). unfold usub in Hx, Hy.
      destruct (Nat.leb_spec (el_off n) (i_start edit)); [|discriminate]. destruct (Nat.leb_spec (el_off n) (i_end edit)); [|discriminate]. injection Hx as <-. injection Hy as <-.
      apply indel_apply_inv in Hw as (aa & d & b & Eg & A & B & ->). unfold i_start, i_end in A, B. cbn [i_insert i_delete r_start r_end] in *. fold (i_start edit) in A. fold (i_end edit) in B. rewrite blen_app in B.
      exists (el_range n), (aa ++ i_insert edit ++ b), (dr_errs a ++ lerrs). split; [|split; [right; exists ls, lerrs, fs, k0, a; repeat (split; [assumption|]); reflexivity|split; [reflexivity|exact F]]].
      exists (texts pre), aa, d, b, (texts suf). cbn [root_elem el_off el_green] in E1, E2. split; [|split; [|split; [reflexivity|split; lia]]].
      * rewrite <- Ht, <- texts_leaves, E1, !texts_app, texts_leaves, Eg. reflexivity.
      * unfold el_range, green_len. rewrite Eg, E2. reflexivity.
    + injection Ho as <-. left. unfold full_reparse in Hr. apply rbind_ok in Hr as (t' & Ht' & Hr). rewrite Ht in Ht'. eauto.
Qed.
Print Assumptions C36_reparse_errors.
(** Editing the text of a string whose quote is missing, after an error: the error before it stays,
    the error of the string is that of the new string. *)
Example C36_reparse_case : match source_file_parse (txt "f( x = 'a") with
  | Ok p => match reparse p (mkIndel (txt "bc") (mkRange 9 9)) with
            | Ok q => (length (pa_errors p), length (pa_errors q), growth (mkIndel (txt "bc") (mkRange 9 9))) = (3, 3, 2) /\ pa_errors q <> pa_errors p
            | _ => False end
  | _ => False end.
Proof. vm_compute. split; [reflexivity|discriminate]. Qed.
