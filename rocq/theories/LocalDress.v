(** LocalDress.v — proof tools for PropsLocal.v: dressing two forests one after the other, and moving a tree. *)
From Verif Require Import Base SyntaxKind TokenSet Lexer BindingPowers Parser Grammar ParserTree Event EventProofs Tree TreeSink SinkProofs Ast Validation ParseSpec ParseProofs
  DressProofs LuaSyntax LexSpec.

(** * Dressing *)
Lemma Dress_det f pos rt a : Dress f pos rt a -> forall a', Dress f pos rt a' -> a = a'.
Proof.
  induction 1 as [pos rt|k fs pos rt tr p rest b He Hd IH|e fs pos rt b Hd IH|e fs gs pos rt tr rest a b He Ha IHa Hb IHb|k fs gs pos rt tr rest a b He Ha IHa Hb IHb]; intros a' H'.
  - inversion H'. reflexivity.
  - inversion H' as [|k' fs' pos' rt' tr' p' rest' b' He' Hd'| | |]; subst. rewrite He in He'. injection He' as <- <- <-. now rewrite (IH _ Hd').
  - inversion H' as [| |e' fs' pos' rt' b' Hd'| |]; subst. now rewrite (IH _ Hd').
  - inversion H' as [| | |e' fs' gs' pos' rt' tr' rest' a1 b1 He' Ha' Hb'|]; subst. rewrite He in He'. injection He' as <- <-. rewrite <- (IHa _ Ha') in *. now rewrite (IHb _ Hb').
  - inversion H' as [| | | |k' fs' gs' pos' rt' tr' rest' a1 b1 He' Ha' Hb']; subst. rewrite He in He'. injection He' as <- <-. rewrite <- (IHa _ Ha') in *. now rewrite (IHb _ Hb').
Qed.
Definition dr_cat (a b : dressed) : dressed := mkDr (dr_green a ++ dr_green b) (dr_errs a ++ dr_errs b) (dr_used a ++ dr_used b) (dr_left b).
Lemma Dress_app f pos rt a : Dress f pos rt a -> forall g b, Dress g (pos + blen (texts (dr_used a))) (dr_left a) b -> Dress (f ++ g) pos rt (dr_cat a b).
Proof.
  induction 1 as [pos rt|k fs pos rt tr p rest b He Hd IH|e fs pos rt b Hd IH|e fs gs pos rt tr rest a b He Ha IHa Hb IHb|k fs gs pos rt tr rest a b He Ha IHa Hb IHb]; intros g x Hx; cbn [app dr_used dr_left] in *.
  - unfold texts in Hx. cbn in Hx. rewrite Nat.add_0_r in Hx. unfold dr_cat. cbn [dr_green dr_errs dr_used dr_left app]. destruct x. exact Hx.
  - rewrite texts_app, blen_app, Nat.add_assoc in Hx. specialize (IH _ _ Hx). unfold dr_cat in *. cbn [dr_green dr_errs dr_used dr_left] in *.
    rewrite <- !(app_assoc _ _ (dr_green x)), <- !(app_assoc _ _ (dr_used x)). exact (D_tok k _ _ _ _ _ _ _ He IH).
  - specialize (IH _ _ Hx). unfold dr_cat in *. cbn [dr_green dr_errs dr_used dr_left app] in *. exact (D_err e _ _ _ _ IH).
  - rewrite texts_app, blen_app, Nat.add_assoc in Hx. specialize (IHb _ _ Hx). unfold dr_cat in *. cbn [dr_green dr_errs dr_used dr_left] in *.
    rewrite <- !(app_assoc _ _ (dr_green x)), <- !(app_assoc _ _ (dr_used x)), <- !(app_assoc _ _ (dr_errs x)). exact (D_errn e _ _ _ _ _ _ _ _ He Ha IHb).
  - rewrite texts_app, blen_app, Nat.add_assoc in Hx. specialize (IHb _ _ Hx). unfold dr_cat in *. cbn [dr_green dr_errs dr_used dr_left] in *.
    rewrite <- !(app_assoc _ _ (dr_green x)), <- !(app_assoc _ _ (dr_used x)), <- !(app_assoc _ _ (dr_errs x)). exact (D_node k _ _ _ _ _ _ _ _ He Ha IHb).
Qed.
Definition dr_shift (d : nat) (a : dressed) : dressed := mkDr (dr_green a) (map (shift_err d) (dr_errs a)) (dr_used a) (dr_left a).
Lemma Dress_shift d f pos rt a : Dress f pos rt a -> Dress f (pos + d) rt (dr_shift d a).
Proof.
  induction 1 as [pos rt|k fs pos rt tr p rest b He Hd IH|e fs pos rt b Hd IH|e fs gs pos rt tr rest a b He Ha IHa Hb IHb|k fs gs pos rt tr rest a b He Ha IHa Hb IHb];
    unfold dr_shift in *; cbn [dr_green dr_errs dr_used dr_left map] in *; rewrite ?map_app.
  - constructor.
  - replace (pos + blen (texts (tr ++ [p])) + d) with (pos + d + blen (texts (tr ++ [p]))) in IH by lia. exact (D_tok k _ _ _ _ _ _ _ He IH).
  - exact (D_err e _ _ _ _ IH).
  - replace (pos + blen (texts tr) + d) with (pos + d + blen (texts tr)) in IHa by lia. replace (pos + blen (texts (tr ++ dr_used a)) + d) with (pos + d + blen (texts (tr ++ dr_used a))) in IHb by lia.
    pose proof (D_errn e _ _ _ _ _ _ _ _ He IHa IHb) as G. cbn [dr_green dr_errs dr_used dr_left] in G. cbn [map]. unfold shift_err at 2. cbn [e_msg e_range r_start r_end].
    replace (pos + blen (texts tr) + d) with (pos + d + blen (texts tr)) by lia. replace (pos + blen (texts tr) + blen (texts (dr_used a)) + d) with (pos + d + blen (texts tr) + blen (texts (dr_used a))) by lia. exact G.
  - replace (pos + blen (texts tr) + d) with (pos + d + blen (texts tr)) in IHa by lia. replace (pos + blen (texts (tr ++ dr_used a)) + d) with (pos + d + blen (texts (tr ++ dr_used a))) in IHb by lia.
    exact (D_node k _ _ _ _ _ _ _ _ He IHa IHb).
Qed.

(** Forests whose last leaf is a token. *)
Fixpoint closes (t : ptree) : bool :=
  match t with
  | PTok _ => true
  | PErr _ => false
  | PErrN fs _ | PNode _ fs => (fix go (fs : list ptree) : bool := match fs with [] => false | [t] => closes t | _ :: fs => go fs end) fs
  end.
Fixpoint ends (fs : list ptree) : bool := match fs with [] => false | [t] => closes t | _ :: fs => ends fs end.
Lemma closes_node k fs : closes (PNode k fs) = ends fs.
Proof. cbn [closes]. induction fs as [|t [|t' fs] IH]; cbn [ends] in *; auto. Qed.
Lemma closes_errn e fs : closes (PErrN fs e) = ends fs.
Proof. cbn [closes]. induction fs as [|t [|t' fs] IH]; cbn [ends] in *; auto. Qed.
Lemma ends_app a b : ends b = true -> ends (a ++ b) = true.
Proof. intros H. induction a as [|t a IH]; [exact H|]. cbn [app]. destruct (a ++ b) eqn:E; [apply app_eq_nil in E as [_ ->]; discriminate|exact IH]. Qed.
Lemma ends_cons t f : ends (t :: f) = true -> (f = [] /\ closes t = true) \/ ends f = true.
Proof. destruct f; cbn [ends]; auto. Qed.
Lemma nontriv_split a b : nontriv (a ++ b) = nontriv a ++ nontriv b.
Proof. unfold nontriv. apply filter_app. Qed.
Lemma Dress_left_some f pos rt a : Dress f pos rt a -> nontriv (dr_left a) <> [] -> nontriv rt <> [].
Proof. intros H N E. apply N. rewrite (Dress_used _ _ _ _ H), nontriv_split in E. now apply app_eq_nil in E as [_ E]. Qed.
Lemma Dress_ends_some f pos rt a : Dress f pos rt a -> ends f = true -> nontriv rt <> [].
Proof.
  induction 1 as [pos rt|k fs pos rt tr p rest b He Hd IH|e fs pos rt b Hd IH|e fs gs pos rt tr rest a b He Ha IHa Hb IHb|k fs gs pos rt tr rest a b He Ha IHa Hb IHb]; intros E.
  - discriminate.
  - destruct (eat_nontriv _ _ _ He) as [-> _]. destruct (eat_triv _ _ _ He) as [_ Ht]. cbn [nontriv filter]. rewrite Ht. discriminate.
  - apply ends_cons in E as [[-> E]|E]; [discriminate E|auto].
  - destruct (eat_nontriv _ _ _ He) as [-> _]. apply ends_cons in E as [[-> E]|E]; [rewrite closes_errn in E; auto|]. exact (Dress_left_some _ _ _ _ Ha (IHb E)).
  - destruct (eat_nontriv _ _ _ He) as [-> _]. apply ends_cons in E as [[-> E]|E]; [rewrite closes_node in E; auto|]. exact (Dress_left_some _ _ _ _ Ha (IHb E)).
Qed.
Lemma eat_more l tr rest r2 : eat l = (tr, rest) -> nontriv rest <> [] -> eat (l ++ r2) = (tr, rest ++ r2).
Proof.
  revert tr rest. induction l as [|p l IH]; cbn [eat app]; intros tr rest H N; [injection H as <- <-; now elim N|]. destruct (triv p).
  - destruct (eat l) as [x y]. injection H as <- <-. now rewrite (IH _ _ eq_refl N).
  - injection H as <- <-. reflexivity.
Qed.
Definition dr_more (r2 : list rtok) (a : dressed) : dressed := mkDr (dr_green a) (dr_errs a) (dr_used a) (dr_left a ++ r2).
Lemma Dress_more r2 f pos rt a : Dress f pos rt a -> f = [] \/ ends f = true \/ nontriv (dr_left a) <> [] -> Dress f pos (rt ++ r2) (dr_more r2 a).
Proof.
  induction 1 as [pos rt|k fs pos rt tr p rest b He Hd IH|e fs pos rt b Hd IH|e fs gs pos rt tr rest a b He Ha IHa Hb IHb|k fs gs pos rt tr rest a b He Ha IHa Hb IHb];
    unfold dr_more in *; cbn [dr_green dr_errs dr_used dr_left map] in *; intros C.
  - constructor.
  - assert (He' : eat (rt ++ r2) = (tr, p :: rest ++ r2)).
    { apply (eat_more _ _ _ r2 He). destruct (eat_triv _ _ _ He) as [_ Ht]. cbn [nontriv filter]. rewrite Ht. discriminate. }
    refine (D_tok k _ _ _ _ _ _ _ He' (IH _)). destruct C as [C|[C|C]]; [discriminate| |auto]. apply ends_cons in C as [[-> _]|C]; auto.
  - refine (D_err e _ _ _ _ (IH _)). destruct C as [C|[C|C]]; [discriminate| |auto]. apply ends_cons in C as [[-> _]|C]; auto.
  - assert (NL : gs = [] /\ ends fs = true \/ nontriv (dr_left a) <> []).
    { destruct C as [C|[C|C]]; [discriminate| |]. - apply ends_cons in C as [[-> C]|C]; [rewrite closes_errn in C; auto|]. right. exact (Dress_ends_some _ _ _ _ Hb C). - right. exact (Dress_left_some _ _ _ _ Hb C). }
    assert (NR : nontriv rest <> []) by (destruct NL as [[_ N]|N]; [exact (Dress_ends_some _ _ _ _ Ha N)|exact (Dress_left_some _ _ _ _ Ha N)]).
    refine (D_errn e _ _ _ _ _ _ _ _ (eat_more _ _ _ r2 He NR) (IHa _) (IHb _)).
    + destruct NL as [[_ N]|N]; auto.
    + destruct C as [C|[C|C]]; [discriminate| |auto]. apply ends_cons in C as [[-> _]|C]; auto.
  - assert (NL : gs = [] /\ ends fs = true \/ nontriv (dr_left a) <> []).
    { destruct C as [C|[C|C]]; [discriminate| |]. - apply ends_cons in C as [[-> C]|C]; [rewrite closes_node in C; auto|]. right. exact (Dress_ends_some _ _ _ _ Hb C). - right. exact (Dress_left_some _ _ _ _ Hb C). }
    assert (NR : nontriv rest <> []) by (destruct NL as [[_ N]|N]; [exact (Dress_ends_some _ _ _ _ Ha N)|exact (Dress_left_some _ _ _ _ Ha N)]).
    refine (D_node k _ _ _ _ _ _ _ _ (eat_more _ _ _ r2 He NR) (IHa _) (IHb _)).
    + destruct NL as [[_ N]|N]; auto.
    + destruct C as [C|[C|C]]; [discriminate| |auto]. apply ends_cons in C as [[-> _]|C]; auto.
Qed.

(** Trivia in front of the tokens goes in front of the tree. *)
Lemma eat_before l tr rest t0 : eat l = (tr, rest) -> forallb triv t0 = true -> eat (t0 ++ l) = (t0 ++ tr, rest).
Proof. intros H. induction t0 as [|p t0 IH]; cbn [forallb app eat]; intros T; [exact H|]. apply andb_true_iff in T as [-> T]. now rewrite (IH T). Qed.
Definition all_green (a : dressed) : list green := dr_green a ++ map gtok (dr_left a).
(** The same error, or an error with no extent that moved from [q] to [p]. *)
Definition moved (p q : nat) (e' e : syntax_error) : Prop := e' = e \/ (e_range e = mkRange q q /\ e_range e' = mkRange p p).
Lemma moved_refl p q l : Forall2 (moved p q) l l.
Proof. induction l; constructor; [now left|assumption]. Qed.
Lemma Dress_before t0 f pos rt a : forallb triv t0 = true -> Dress f (pos + blen (texts t0)) rt a ->
  exists a', Dress f pos (t0 ++ rt) a' /\ all_green a' = map gtok t0 ++ all_green a /\ map e_msg (dr_errs a') = map e_msg (dr_errs a) /\
    Forall2 (moved pos (pos + blen (texts t0))) (dr_errs a') (dr_errs a).
Proof.
  intros T0.
  intros H. remember (pos + blen (texts t0)) as q eqn:Eq. revert Eq.
  induction H as [q rt|k fs q rt tr p rest b He Hd IH|e fs q rt b Hd IH|e fs gs q rt tr rest a b He Ha IHa Hb IHb|k fs gs q rt tr rest a b He Ha IHa Hb IHb]; intros Eq.
  - eexists. split; [constructor|]. unfold all_green. cbn [dr_green dr_errs dr_left app]. rewrite map_app. auto using moved_refl.
  - pose proof (eat_before _ _ _ _ He T0) as He'. eexists. split; [refine (D_tok k _ _ _ _ _ _ _ He' _)|].
    + rewrite <- app_assoc. rewrite texts_app, blen_app, Nat.add_assoc. rewrite <- Eq. exact Hd.
    + unfold all_green. cbn [dr_green dr_errs dr_left]. rewrite map_app, <- !app_assoc. auto using moved_refl.
  - destruct (IH Eq) as (a' & H1 & H2 & H3 & H4). eexists. split; [exact (D_err e _ _ _ _ H1)|]. unfold all_green in *. cbn [dr_green dr_errs dr_left map]. rewrite H3. split; [exact H2|]. split; [reflexivity|].
    constructor; [|exact H4]. right. cbn [e_range]. auto.
  - pose proof (eat_before _ _ _ _ He T0) as He'. eexists. split; [refine (D_errn e _ _ _ _ _ _ a b He' _ _)|].
    + rewrite texts_app, blen_app, Nat.add_assoc. rewrite <- Eq. exact Ha.
    + rewrite <- app_assoc. rewrite texts_app, blen_app, Nat.add_assoc. rewrite <- Eq. exact Hb.
    + unfold all_green. cbn [dr_green dr_errs dr_left]. rewrite map_app, <- !app_assoc. rewrite (texts_app t0), blen_app, !Nat.add_assoc. rewrite <- !Eq. auto using moved_refl.
  - pose proof (eat_before _ _ _ _ He T0) as He'. eexists. split; [refine (D_node k _ _ _ _ _ _ a b He' _ _)|].
    + rewrite texts_app, blen_app, Nat.add_assoc. rewrite <- Eq. exact Ha.
    + rewrite <- app_assoc. rewrite texts_app, blen_app, Nat.add_assoc. rewrite <- Eq. exact Hb.
    + unfold all_green. cbn [dr_green dr_errs dr_left]. rewrite map_app, <- !app_assoc. auto using moved_refl.
Qed.

(** * Programs end with a token *)
Lemma ends_cons_t t f : ends f = true -> ends (t :: f) = true.
Proof. intros H. exact (ends_app [t] f H). Qed.
Lemma ends_snoc f k : ends (f ++ [PTok k]) = true.
Proof. now apply ends_app. Qed.
Lemma names_ends n : ends (names_t n) = true.
Proof. induction n as [|n IH]; [reflexivity|]. cbn [names_t]. now apply ends_cons_t, ends_cons_t. Qed.
Lemma programs_end :
  (forall e, closes (exp_t e) = true) /\ (forall es, ends (exps_t es) = true) /\ (forall a, closes (args_t a) = true) /\
  (forall fs : fields, True) /\ (forall f : field, True) /\ (forall s, closes (stat_t s) = true) /\ (forall t : iftail, True) /\
  (forall b, b <> BNil -> ends (block_t b) = true).
Proof.
  apply lua_ind; intros; try exact Logic.I; try congruence; cbn [exp_t exps_t args_t stat_t block_t]; rewrite ?closes_node;
    repeat first [reflexivity | assumption | apply ends_snoc | apply names_ends | apply ends_app; (reflexivity || apply ends_snoc)
      | match goal with |- ends [?t] = true => change (closes t = true) end
      | match goal with |- closes (PNode _ _) = true => rewrite closes_node end | lazymatch goal with |- ends (_ :: semi_t _ ++ _) = true => fail | _ => apply ends_cons_t end].
  destruct b as [|s' semi' b'].
  - cbn [block_t]. rewrite app_nil_r. destruct semi; cbn [semi_t ends closes]; [reflexivity|assumption].
  - apply ends_cons_t, ends_app. apply H0. discriminate.
Qed.

(** * Moving a tree *)
Definition sh (d : nat) (e : elem) : elem := mkElem (el_off e + d) (el_green e).
Lemma sh_range d e : el_range (sh d e) = mkRange (r_start (el_range e) + d) (r_end (el_range e) + d).
Proof. unfold el_range, sh. cbn [el_off el_green r_start r_end]. f_equal. lia. Qed.
Lemma place_sh d cs : forall off, place (off + d) cs = map (sh d) (place off cs).
Proof.
  induction cs as [|c cs IH]; intros off; [reflexivity|]. cbn [place map]. unfold sh at 1. cbn [el_off el_green].
  replace (off + d + green_len c) with (off + green_len c + d) by lia. now rewrite IH.
Qed.
Lemma children_sh d e : el_children_with_tokens (sh d e) = map (sh d) (el_children_with_tokens e).
Proof. unfold el_children_with_tokens. cbn [sh el_green el_off]. destruct (el_green e); [apply place_sh|reflexivity]. Qed.
Lemma filter_sh d (f : elem -> bool) l : (forall e, f (sh d e) = f e) -> filter f (map (sh d) l) = map (sh d) (filter f l).
Proof. intros H. induction l as [|e l IH]; [reflexivity|]. cbn [map filter]. rewrite H, IH. destruct (f e); reflexivity. Qed.
Lemma ast_children_sh d c e : ast_children c (sh d e) = map (sh d) (ast_children c e).
Proof. unfold ast_children, el_children. rewrite children_sh, !filter_sh; [reflexivity| |]; intros x; reflexivity. Qed.
Lemma ast_child_sh d c e : ast_child c (sh d e) = option_map (sh d) (ast_child c e).
Proof. unfold ast_child. rewrite ast_children_sh. destruct (ast_children c e); reflexivity. Qed.
Lemma nth_error_sh d l n : nth_error (map (sh d) l) n = option_map (sh d) (nth_error l n).
Proof. revert n. induction l as [|e l IH]; intros [|n]; cbn; auto. Qed.
Lemma err_sh d m e : mkErr m (el_range (sh d e)) = shift_err d (mkErr m (el_range e)).
Proof. rewrite sh_range. reflexivity. Qed.
Lemma errs_sh d m l : map (fun x => mkErr m (el_range x)) (map (sh d) l) = map (shift_err d) (map (fun x => mkErr m (el_range x)) l).
Proof. rewrite !map_map. apply map_ext. intros x. apply err_sh. Qed.
Lemma expr_stmt_sh d e : validate_expr_stmt (sh d e) = map (shift_err d) (validate_expr_stmt e).
Proof.
  unfold validate_expr_stmt, expr_stmt_multival, multival_exprs. rewrite ast_child_sh. destruct (ast_child (is_kind KMultivalExpr) e) as [mv|]; cbn [option_map map]; [|now rewrite err_sh].
  rewrite ast_children_sh, !filter_sh by (intros x; reflexivity). rewrite map_length, errs_sh, !map_app, !err_sh.
  destruct (length _ =? 0), (1 <? length _); reflexivity.
Qed.
Lemma assign_sh d e : validate_assign (sh d e) = map (shift_err d) (validate_assign e).
Proof.
  unfold validate_assign, assign_lhs, assign_rhs, multival_exprs. rewrite ast_children_sh, !nth_error_sh.
  destruct (nth_error _ 0) as [l|]; cbn [option_map map]; [|now rewrite err_sh]. destruct (nth_error _ 1) as [r|]; cbn [option_map map]; [|now rewrite err_sh].
  rewrite ast_children_sh, filter_sh by (intros x; reflexivity). now rewrite errs_sh.
Qed.
Lemma unescape_sh d s fuel : forall pos t, unescape fuel pos (s + d) t = map (shift_err d) (unescape fuel pos s t).
Proof.
  induction fuel as [|fuel IH]; intros pos t; [reflexivity|]. cbn [unescape]. destruct t as [|c t]; [reflexivity|].
  destruct (c =? backslash)%N; [|apply IH]. destruct t as [|c' t].
  - cbn [map]. unfold shift_err. cbn [e_msg e_range r_start r_end]. do 2 f_equal. f_equal; lia.
  - rewrite IH. destruct (escape_ok c'); [reflexivity|]. cbn [map]. f_equal. unfold shift_err. cbn [e_msg e_range r_start r_end]. f_equal. f_equal; lia.
Qed.
Lemma find_sh d (f : elem -> bool) l : (forall e, f (sh d e) = f e) -> find f (map (sh d) l) = option_map (sh d) (find f l).
Proof. intros H. induction l as [|e l IH]; [reflexivity|]. cbn [map find]. rewrite H, IH. destruct (f e); reflexivity. Qed.
Lemma token_sh d e : literal_token (sh d e) = (let? t := literal_token e in Ok (sh d t)).
Proof.
  unfold literal_token. rewrite children_sh, find_sh by (intros x; reflexivity). destruct (find _ _) as [c|]; [|reflexivity]. cbn [option_map].
  change (el_green (sh d c)) with (el_green c). destruct (is_gnode (el_green c)); reflexivity.
Qed.
Lemma validate_node_sh d e x y : validate_node (sh d e) = Ok x -> validate_node e = Ok y -> x = map (shift_err d) y.
Proof.
  unfold validate_node. change (el_kind (sh d e)) with (el_kind e). destruct (el_kind e); intros Hx Hy; try (injection Hx as <-; injection Hy as <-; auto using expr_stmt_sh, assign_sh; reflexivity).
  unfold validate_literal, literal_kind_of in *. rewrite token_sh in Hx. destruct (literal_token e) as [tok| |]; try discriminate. cbn [rbind] in *.
  change (el_kind (sh d tok)) with (el_kind tok) in Hx. change (el_green (sh d tok)) with (el_green tok) in Hx. change (el_off (sh d tok)) with (el_off tok + d) in Hx.
  destruct (el_kind tok); cbn [rbind] in *; try discriminate; try (injection Hx as <-; injection Hy as <-; reflexivity).
  destruct (unquote _) as [[[o body]|]| |]; cbn [rbind] in *; try discriminate; [|injection Hx as <-; injection Hy as <-; reflexivity].
  apply rbind_ok in Hx as (u1 & _ & Hx). apply rbind_ok in Hx as (u2 & _ & Hx). apply rbind_ok in Hy as (u3 & _ & Hy). apply rbind_ok in Hy as (u4 & _ & Hy).
  replace (el_off tok + d + o) with (el_off tok + o + d) in Hx by lia. rewrite unescape_sh in Hx. injection Hx as <-. injection Hy as <-. reflexivity.
Qed.
Lemma validate_list_sh d l : forall x y, validate_list (map (sh d) l) = Ok x -> validate_list l = Ok y -> x = map (shift_err d) y.
Proof.
  induction l as [|e l IH]; intros x y Hx Hy; cbn [map validate_list] in *; [injection Hx as <-; injection Hy as <-; reflexivity|].
  apply rbind_ok in Hx as (a & A & Hx). apply rbind_ok in Hx as (b & B & Hx). apply rbind_ok in Hy as (a' & A' & Hy). apply rbind_ok in Hy as (b' & B' & Hy).
  injection Hx as <-. injection Hy as <-. rewrite map_app, (validate_node_sh _ _ _ _ A A'), (IH _ _ B B'). reflexivity.
Qed.
Lemma validate_list_app a : forall b x, validate_list (a ++ b) = Ok x -> exists u v, validate_list a = Ok u /\ validate_list b = Ok v /\ x = u ++ v.
Proof.
  induction a as [|e a IH]; intros b x H; cbn [app validate_list] in *; [eauto|].
  apply rbind_ok in H as (p & Hp & H). apply rbind_ok in H as (q & Hq & H). injection H as <-. destruct (IH _ _ Hq) as (u & v & -> & -> & ->). rewrite Hp. cbn [rbind].
  eexists _, v. rewrite <- app_assoc. auto.
Qed.
Lemma descs_sh d cs off : descs (off + d) cs = map (sh d) (descs off cs).
Proof.
  assert (G : forall g off, descendants_at (off + d) g = map (sh d) (descendants_at off g)).
  { clear cs off. fix IH 1. intros [k cs|k t] off; [|reflexivity]. rewrite !descendants_node. cbn [map]. f_equal. revert off.
    induction cs as [|c cs IHcs]; intros off; [reflexivity|]. cbn [descs]. rewrite map_app, (IH c off). f_equal. rewrite <- (IHcs (off + green_len c)). f_equal. lia. }
  revert off. induction cs as [|c cs IH]; intros off; [reflexivity|]. cbn [descs]. rewrite map_app, G. f_equal. rewrite <- IH. f_equal. lia.
Qed.
