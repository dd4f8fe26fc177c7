(** ValidProofs.v — nodes of parsed trees, and totality and ranges of validation. *)
From Verif Require Import Base SyntaxKind TokenSet Lexer LexSpec LexerDirect LexerProofs LexerClass LexerNum BindingPowers Parser Grammar
  Event EventProofs Tree TreeSink ParserTree SinkProofs GrammarSpec ParserTotal Ast ParseSpec ParseProofs DressProofs Validation.

Definition root_of (a : dressed) : green := GNode KSourceFile [GNode KBlock (dr_green a ++ map gtok (dr_left a))].

Lemma root_descs a : el_descendants (root_elem (root_of a)) =
  [mkElem 0 (root_of a); mkElem 0 (GNode KBlock (dr_green a ++ map gtok (dr_left a)))] ++ descs 0 (dr_green a).
Proof.
  unfold el_descendants, root_elem. cbn [el_off el_green]. unfold root_of at 1. rewrite descendants_node.
  cbn [descs]. rewrite descendants_node, app_nil_r, descs_app, descs_toks, app_nil_r. reflexivity.
Qed.

Lemma parsed_Dress t ls fs a : parsed t ls fs a -> Dress fs 0 (rt_of ls) a.
Proof. intros H. apply dress_rel. exact (pd_dress _ _ _ _ H). Qed.

Lemma parsed_origin t ls fs a e : parsed t ls fs a -> In e (descs 0 (dr_green a)) -> origin (rt_of ls) fs e.
Proof.
  intros H Hin. apply (Dress_desc _ _ _ _ (parsed_Dress _ _ _ _ H) _ [] []); auto.
  rewrite app_nil_r. symmetry. exact (pd_kinds _ _ _ _ H).
Qed.

Lemma parsed_local t ls fs a : parsed t ls fs a -> every local fs.
Proof. intros H. exact (Tree_every _ _ _ (pd_tree _ _ _ _ H)). Qed.

Lemma every_in P f k fs : every P f -> In (k, fs) (fsubs f) -> P k fs.
Proof. unfold every. rewrite Forall_forall. intros H Hin. exact (H _ Hin). Qed.

(** A node whose subtree is one token. *)
Lemma origin_tok all f e k0 : origin all f e -> (forall fs, In (el_kind e, fs) (fsubs f) -> fs = [PTok k0]) ->
  is_trivia k0 = false ->
  exists x c r, el_green e = GNode (el_kind e) [GTok k0 x] /\ all = c ++ (k0, x) :: r /\ el_off e = blen (texts c).
Proof.
  intros (k & fs & c & rt & a & K & Hin & Hall & Hoff & HD & Hg & He & HK) Hfs Ht.
  assert (Ek : el_kind e = k) by (unfold el_kind; now rewrite Hg). rewrite Ek in *.
  rewrite (Hfs _ Hin) in HD, HK. inversion HD; subst. destruct (eat rt) as [tr' rest'] eqn:Hr. cbn [fst] in He. subst tr'.
  match goal with E : (_, _) = (_, _) |- _ => injection E as <- -> end.
  match goal with E : Dress [] _ _ _ |- _ => inversion E; subst end. pose proof (eat_app _ _ _ Hr) as Hrt. cbn [app] in Hrt. subst rt.
  destruct p as [kp x]. destruct (eat_triv _ _ _ Hr) as [_ Hp]. cbn [nontriv filter] in HK. rewrite Hp in HK. injection HK as Ekp _.
  cbn [fst] in Ekp. subst kp. exists x, c, rest. rewrite Hg. cbn [dr_green map app gtok fst snd]. auto.
Qed.

Lemma literal_nontriv l : In l literals -> is_trivia l = false.
Proof. cbn. intuition; subst; reflexivity. Qed.

(** Literal nodes of a parsed tree. *)
Lemma parsed_literal t ls fs a e : parsed t ls fs a -> In e (el_descendants (root_elem (root_of a))) -> el_kind e = KLiteral ->
  exists k x c r, In k literals /\ el_green e = GNode KLiteral [GTok k x] /\ rt_of ls = c ++ (k, x) :: r /\
    el_off e = blen (texts c).
Proof.
  intros H Hin Hk. rewrite root_descs in Hin. destruct Hin as [<-|[<-|Hin]]; try discriminate Hk.
  pose proof (parsed_origin _ _ _ _ _ H Hin) as Ho. pose proof (parsed_local _ _ _ _ H) as HL.
  destruct Ho as (k & f & c & rt & b & K & Hs & Ho).
  assert (Ek : el_kind e = k) by (unfold el_kind; destruct Ho as (_ & _ & _ & -> & _); reflexivity).
  rewrite Hk in Ek. subst k. destruct (every_in _ _ _ _ HL Hs) as (_ & _ & Hlit & _).
  destruct (Hlit eq_refl) as (l & Hl & ->).
  destruct Ho as (Hall & Hoff & HD & Hg & He & HK).
  (* use origin_tok on the single subtree *)
  assert (Ho' : origin (rt_of ls) [PNode KLiteral [PTok l]] e).
  { exists KLiteral, [PTok l], c, rt, b, K. split; [left; reflexivity|]. auto 6. }
  destruct (origin_tok _ _ _ l Ho') as (x & c' & r & G1 & G2 & G3).
  - intros f' Hf'. rewrite Hk in Hf'. cbn in Hf'. destruct Hf' as [E|[]]. now injection E.
  - exact (literal_nontriv _ Hl).
  - rewrite Hk in G1. exists l, x, c', r. auto.
Qed.

Lemma parsed_name t ls fs a e : parsed t ls fs a -> In e (el_descendants (root_elem (root_of a))) -> el_kind e = KName ->
  exists x c r, el_green e = GNode KName [GTok KIdent x] /\ rt_of ls = c ++ (KIdent, x) :: r /\ el_off e = blen (texts c).
Proof.
  intros H Hin Hk. rewrite root_descs in Hin. destruct Hin as [<-|[<-|Hin]]; try discriminate Hk.
  destruct (origin_tok _ _ _ KIdent (parsed_origin _ _ _ _ _ H Hin)) as (x & c & r & G1 & G2 & G3); [|reflexivity|].
  - intros f Hf. rewrite Hk in Hf. destruct (every_in _ _ _ _ (parsed_local _ _ _ _ H) Hf) as (_ & _ & _ & Hn & _). auto.
  - rewrite Hk in G1. eauto 6.
Qed.

(** ** Validation is total *)
Lemma literal_token_one off k x : is_trivia k = false ->
  literal_token (mkElem off (GNode KLiteral [GTok k x])) = Ok (mkElem off (GTok k x)).
Proof. intros H. unfold literal_token. cbn. unfold el_kind. cbn [el_green green_kind]. rewrite H. reflexivity. Qed.

Lemma rtok_in t ls k x c r : Lexed t ls -> rt_of ls = c ++ (k, x) :: r -> rtok_ok (k, x).
Proof.
  intros H E. pose proof (Lexed_ok _ _ H) as Hok. rewrite E in Hok. apply Forall_app in Hok as [_ Hok].
  inversion Hok; assumption.
Qed.

Lemma unquote_ok x c r : x = c :: r -> c = squote \/ c = dquote \/ c = lbr -> exists o, unquote x = Ok o.
Proof.
  intros -> [-> |[-> | ->]]; unfold unquote.
  - cbn [orb]. change (squote =? squote)%N with true. cbn [orb]. destruct (_ || _); eauto.
  - change (dquote =? dquote)%N with true. rewrite orb_true_r. destruct (_ || _); eauto.
  - change (lbr =? squote)%N with false. change (lbr =? dquote)%N with false. change (lbr =? lbr)%N with true. cbn [orb]. eauto.
Qed.

Lemma blen_cons c x : blen (c :: x) = utf8_len c + blen x.
Proof. reflexivity. Qed.

(** Ranges reported by [unescape] lie in the body. *)
Lemma unescape_range fuel : forall pos start x, Forall (fun e =>
  pos + start <= r_start (e_range e) < r_end (e_range e) /\ r_end (e_range e) <= pos + start + blen x) (unescape fuel pos start x).
Proof.
  induction fuel as [|n IH]; intros pos start x; [constructor|]. cbn [unescape]. destruct x as [|c x]; [constructor|].
  assert (Hc : 1 <= utf8_len c) by apply utf8_len_pos.
  destruct (c =? backslash)%N eqn:E.
  - apply N.eqb_eq in E as ->. change (utf8_len backslash) with 1 in *. destruct x as [|d x].
    + constructor; [|constructor]. cbn [e_range r_start r_end blen]. change (utf8_len backslash) with 1. lia.
    + assert (Hd : 1 <= utf8_len d) by apply utf8_len_pos.
      assert (HR : Forall (fun e => pos + start <= r_start (e_range e) < r_end (e_range e) /\
         r_end (e_range e) <= pos + start + blen (backslash :: d :: x)) (unescape n (pos + 1 + utf8_len d) start x)).
      { eapply Forall_impl; [|apply IH]. intros e. cbn beta. rewrite !blen_cons. change (utf8_len backslash) with 1. lia. }
      destruct (escape_ok d); [exact HR|]. constructor; [|exact HR]. cbn [e_range r_start r_end]. rewrite !blen_cons.
      change (utf8_len backslash) with 1. lia.
  - eapply Forall_impl; [|apply IH]. intros e. cbn beta. rewrite blen_cons. lia.
Qed.

(** A bracket token without its second bracket: the lexer's "Invalid bracket notation". *)
Definition half_bracket (x : text) : Prop :=
  exists n r, x = lbr :: repeat eqs n ++ r /\ hd_is eqs r = false /\ hd_is lbr r = false.

Lemma take_while_split f x : x = take_while f x ++ skipn (length (take_while f x)) x.
Proof. induction x as [|c x IH]; [reflexivity|]. cbn [take_while]. destruct (f c); [|reflexivity]. cbn [length skipn app]. now rewrite <- IH. Qed.
Lemma take_while_all x : take_while (N.eqb eqs) x = repeat eqs (length (take_while (N.eqb eqs) x)).
Proof. induction x as [|c x IH]; [reflexivity|]. cbn [take_while]. destruct (eqs =? c)%N eqn:E; [|reflexivity]. apply N.eqb_eq in E as <-. cbn [length repeat]. now rewrite <- IH. Qed.
Lemma take_while_stop x : hd_is eqs (skipn (length (take_while (N.eqb eqs) x)) x) = false.
Proof.
  induction x as [|c x IH]; [reflexivity|]. cbn [take_while]. destruct (eqs =? c)%N eqn:E; [exact IH|]. cbn [length skipn hd_is].
  now rewrite N.eqb_sym.
Qed.
Lemma blen_removelast x : blen (removelast x) <= blen x.
Proof. induction x as [|c x IH]; [cbn; lia|]. destruct x as [|d x]; [cbn; lia|]. change (removelast (c :: d :: x)) with (c :: removelast (d :: x)). rewrite (blen_cons c (removelast (d :: x))), (blen_cons c (d :: x)). lia. Qed.
Lemma blen_firstn n x : blen (firstn n x) <= blen x.
Proof. rewrite <- (firstn_skipn n x) at 2. rewrite blen_app. lia. Qed.
Lemma last_is_app c x y : last_is c (x ++ [y]) = (c =? y)%N.
Proof. unfold last_is. rewrite rev_app_distr. reflexivity. Qed.

Lemma unquote_len x o body : unquote x = Ok (Some (o, body)) -> o + blen body <= blen x + 1 /\ o <= blen x + 1 /\
  (~ half_bracket x -> o + blen body <= blen x).
Proof.
  destruct x as [|d x1]; [discriminate|]. unfold unquote.
  destruct ((d =? squote)%N || (d =? dquote)%N) eqn:Eq.
  - destruct (negb (last_is d (d :: x1)) || (blen (d :: x1) =? 1)) eqn:El; [discriminate|].
    intros [= <- <-]. pose proof (blen_removelast x1). pose proof (utf8_len_pos d). rewrite blen_cons. lia.
  - destruct (d =? lbr)%N eqn:Ed; [|discriminate]. apply N.eqb_eq in Ed as ->.
    set (n := length (take_while (N.eqb eqs) x1)). intros [= <- <-].
    pose proof (take_while_split (N.eqb eqs) x1) as Hs. fold n in Hs. rewrite take_while_all in Hs. fold n in Hs.
    pose proof (take_while_stop x1) as Hst. fold n in Hst.
    set (t2 := skipn n x1) in *.
    set (t3 := match t2 with [] => t2 | c :: r => if (c =? lbr)%N then r else t2 end).
    match goal with |- _ + blen ?b <= _ /\ _ => assert (Hb : blen b <= blen t3) end.
    { destruct (last_is rbr t3); [|lia].
      match goal with |- context [if last_is rbr ?y then _ else _] => assert (Hy : blen y <= blen t3) end.
      { etransitivity; [apply blen_firstn|apply blen_removelast]. }
      destruct (last_is rbr _); [|exact Hy]. etransitivity; [apply blen_removelast|exact Hy]. }
    assert (Hx : blen (lbr :: x1) = 1 + n + blen t2).
    { rewrite Hs, blen_cons, blen_app. change (utf8_len lbr) with 1.
      assert (Hr : forall k, blen (repeat eqs k) = k) by (induction k as [|k IHk]; [reflexivity|]; cbn [repeat]; rewrite blen_cons, IHk; reflexivity).
      rewrite Hr. lia. }
    rewrite Hx. assert (H3 : blen t3 <= blen t2).
    { unfold t3. destruct t2 as [|c r]; [lia|]. destruct (c =? lbr)%N; [rewrite blen_cons|]; lia. }
    repeat split; try lia. intros Hn.
    enough (blen t3 + 1 <= blen t2) by lia. unfold t3. destruct t2 as [|c r] eqn:E2.
    + exfalso. apply Hn. exists n, []. rewrite app_nil_r. rewrite app_nil_r in Hs. now rewrite Hs at 1.
    + destruct (c =? lbr)%N eqn:Ec; [rewrite blen_cons; pose proof (utf8_len_pos c); lia|].
      exfalso. apply Hn. exists n, (c :: r). split; [now rewrite Hs at 1|]. split; [exact Hst|exact Ec].
Qed.

Lemma forallb_Forall {A} (f : A -> bool) l : Forall (fun x => f x = true) l -> forallb f l = true.
Proof. induction 1; [reflexivity|]. cbn. now rewrite H, IHForall. Qed.

Lemma validate_node_total t ls fs a e : parsed t ls fs a -> fits_u32 (S (blen t)) = true -> In e (el_descendants (root_elem (root_of a))) ->
  exists es, validate_node e = Ok es.
Proof.
  intros H Hbig Hin. unfold validate_node. destruct (el_kind e) eqn:Hk; eauto.
  destruct (parsed_literal _ _ _ _ _ H Hin Hk) as (k & x & c & r & Hl & Hg & Hrt & Hoff).
  unfold validate_literal, literal_kind_of. destruct e as [off g]. cbn [el_green el_off] in *. subst g.
  rewrite (literal_token_one _ _ _ (literal_nontriv _ Hl)). cbn [rbind].
  unfold el_kind. cbn [el_green green_kind]. cbn in Hl.
  repeat destruct Hl as [<-|Hl]; cbn [rbind]; eauto; [|destruct Hl].
  cbn [green_text]. destruct (rtok_in _ _ _ _ _ _ (pd_lex _ _ _ _ H) Hrt) as (_ & Hs & _). destruct (Hs eq_refl) as (d & y & Hx & Hd).
  cbn [snd] in Hx. destruct (unquote_ok _ _ _ Hx Hd) as [o Hu]. rewrite Hu. cbn [rbind]. destruct o as [[o body]|]; [|eauto].
  destruct (unquote_len _ _ _ Hu) as (U1 & U2 & _).
  assert (Hend : off + blen x <= blen t).
  { rewrite Hoff. transitivity (blen (texts (rt_of ls))); [|rewrite rt_of_text, <- (Lexed_text _ _ (pd_lex _ _ _ _ H)); lia].
    rewrite Hrt, texts_app, blen_app. unfold texts at 3. cbn [flat_map snd]. rewrite blen_app. lia. }
  cbn [el_off]. rewrite (fits_le (S (blen t)) (off + o)) by (lia || exact Hbig). cbn [rassert rbind].
  rewrite forallb_Forall; [cbn [rassert rbind]; eauto|].
  eapply Forall_impl; [|apply unescape_range]. intros e He. cbn beta in He. apply (fits_le (S (blen t))); [lia|exact Hbig].
Qed.

Lemma validate_list_total l : (forall e, In e l -> exists es, validate_node e = Ok es) -> exists es, validate_list l = Ok es.
Proof.
  induction l as [|e l IH]; intros H; [eexists; reflexivity|]. cbn [validate_list].
  destruct (H e (or_introl eq_refl)) as [es ->]. cbn [rbind]. destruct IH as [es' ->]; [intros; apply H; now right|].
  cbn [rbind]. eauto.
Qed.

Lemma parsed_source_file t ls fs a : parsed t ls fs a -> fits_u32 (S (blen t)) = true -> exists verrs, validate (root_elem (root_of a)) = Ok verrs /\
  source_file_parse t = Ok (mkParse (root_of a) ((dr_errs a ++ errors_of 0 (map lt_tok ls) (map lt_err ls)) ++ verrs)).
Proof.
  intros H Hbig. destruct (validate_list_total (el_descendants (root_elem (root_of a)))) as [v Hv].
  { intros e He. exact (validate_node_total _ _ _ _ _ H Hbig He). }
  exists v. split; [exact Hv|]. unfold source_file_parse. rewrite (parsed_text _ _ _ _ H). cbn [rbind].
  change (GNode KSourceFile [GNode KBlock (dr_green a ++ map gtok (dr_left a))]) with (root_of a).
  unfold validate. rewrite Hv. cbn [rbind]. reflexivity.
Qed.

Lemma source_file_inv t p : source_file_parse t = Ok p -> exists ls fs a verrs, parsed t ls fs a /\
  validate (root_elem (root_of a)) = Ok verrs /\ pa_green p = root_of a /\
  pa_errors p = (dr_errs a ++ errors_of 0 (map lt_tok ls) (map lt_err ls)) ++ verrs.
Proof.
  intros H. unfold source_file_parse in H. apply rbind_ok in H as ([g es] & Hx & H).
  destruct (parse_exists t (parse_text_fits _ _ Hx)) as (ls & fs & a & Hp).
  rewrite (parsed_text _ _ _ _ Hp) in Hx. injection Hx as <- <-. apply rbind_ok in H as (v & Hv & H). cbn [rbind] in H.
  injection H as <-. exists ls, fs, a, v. cbn [pa_green pa_errors]. auto.
Qed.
Lemma parse_tokens_inv t toks errs r : tokenize t = Ok (toks, errs) -> parse_tokens t toks = Ok r ->
  exists ls fs a, parsed t ls fs a /\ toks = map lt_tok ls /\ errs = errors_of 0 (map lt_tok ls) (map lt_err ls) /\ r = (root_of a, dr_errs a).
Proof.
  intros Ht H. destruct (parse_exists t (tokenize_ok_fits _ _ Ht)) as (ls & fs & a & Hp).
  pose proof (pd_lexer _ _ _ _ Hp) as E. rewrite Ht in E. injection E as -> ->.
  rewrite (pd_parse _ _ _ _ Hp) in H. injection H as <-. exists ls, fs, a. auto.
Qed.
Lemma parse_text_inv t r : parse_text t = Ok r ->
  exists ls fs a, parsed t ls fs a /\ r = (root_of a, dr_errs a ++ errors_of 0 (map lt_tok ls) (map lt_err ls)).
Proof.
  intros H. destruct (parse_exists t (parse_text_fits _ _ H)) as (ls & fs & a & Hp).
  rewrite (parsed_text _ _ _ _ Hp) in H. injection H as <-. exists ls, fs, a. auto.
Qed.

Lemma root_leaves t ls fs a : parsed t ls fs a -> green_leaves (root_of a) = rt_of ls.
Proof.
  intros H. unfold root_of. cbn [green_leaves flat_map]. rewrite !app_nil_r. change (flat_map green_leaves ?x) with (leaves x).
  rewrite leaves_app, leaves_gtok, (pd_leaves _ _ _ _ H). symmetry. exact (pd_used _ _ _ _ H).
Qed.
Lemma root_text t ls fs a : parsed t ls fs a -> green_text (root_of a) = t.
Proof.
  intros H. rewrite green_text_leaves, (root_leaves _ _ _ _ H), rt_of_text. symmetry. exact (Lexed_text _ _ (pd_lex _ _ _ _ H)).
Qed.

(** ** Ranges of validation errors *)
Lemma half_bracket_err e x b : Step KStr e x b -> half_bracket x -> e <> None.
Proof.
  intros Hs (n & r' & -> & H1 & H2) ->. inversion Hs; subst.
  - apply op_not_str in H. exact H.
  - rename H3 into Hd. unfold dbrackets, dbracket in Hd.
    rewrite <- app_assoc in Hd. rewrite dropw_app in Hd by (clear; induction n; [reflexivity|exact IHn]).
    destruct r' as [|c r'].
    + cbn [app] in Hd. destruct (dclose_all _ (drop1 lbr (dropw (N.eqb eqs) b))) as [found r] eqn:Ed. destruct found; [|discriminate].
      destruct (hd_is lbr (dropw (N.eqb eqs) b)) eqn:Eh; [|discriminate].
      pose proof (suffix_dclose (S (S (length (drop1 lbr (dropw (N.eqb eqs) b))))) (length (takew (N.eqb eqs) (repeat eqs n ++ b))) (drop1 lbr (dropw (N.eqb eqs) b))) as Hsf.
      unfold dclose_all in Ed. rewrite Ed in Hsf. cbn [snd] in Hsf. apply suffix_len in Hsf.
      injection Hd as _ Hd. apply (f_equal (@length _)) in Hd. pose proof (suffix_len _ _ (suffix_drop1 rbr r)).
      pose proof (suffix_len _ _ (suffix_dropw (N.eqb eqs) b)).
      destruct (dropw (N.eqb eqs) b) as [|c t]; [discriminate|]. cbn [hd_is drop1] in *. rewrite Eh in Hsf. cbn [length] in *. lia.
    + cbn [hd_is app] in *. rewrite dropw_stop in Hd by (now rewrite N.eqb_sym). cbn [drop1 hd_is] in Hd. rewrite H2 in Hd.
      destruct (dclose_all _ _) as [[] ]; discriminate Hd.
  - match goal with G : is_delim _ |- _ => destruct G as [G|G]; discriminate G end.
  - match goal with G : is_ident_start _ = true |- _ => discriminate G end.
Qed.

Lemma place_range off cs x : In x (place off cs) -> off <= el_off x /\ el_off x + green_len (el_green x) <= off + glen cs.
Proof.
  revert off. induction cs as [|c cs IH]; intros off; [intros []|]. cbn [place]. unfold glen. cbn [flat_map]. rewrite blen_app.
  intros [<-|H].
  - cbn [el_off el_green]. unfold green_len. lia.
  - apply IH in H. unfold glen in H. unfold green_len in *. lia.
Qed.

Lemma child_range cast e x : In x (ast_children cast e) ->
  el_off e <= el_off x /\ el_off x + green_len (el_green x) <= el_off e + green_len (el_green e).
Proof.
  unfold ast_children, el_children, el_children_with_tokens. intros H. apply filter_In in H as [H _]. apply filter_In in H as [H _].
  destruct (el_green e) as [k cs|k y] eqn:E; [|destruct H]. apply place_range in H. exact H.
Qed.

(** Every node of a parsed tree lies in the text. *)
Lemma parsed_in_text t ls fs a e : parsed t ls fs a -> In e (el_descendants (root_elem (root_of a))) ->
  el_off e + green_len (el_green e) <= blen t.
Proof.
  intros H Hin. rewrite root_descs in Hin. destruct Hin as [<-|[<-|Hin]]; cbn [el_off el_green].
  - unfold green_len. rewrite (root_text _ _ _ _ H). lia.
  - transitivity (green_len (root_of a)); [|unfold green_len; rewrite (root_text _ _ _ _ H); lia].
    unfold root_of, green_len. cbn [green_text flat_map]. rewrite app_nil_r. lia.
  - destruct (parsed_origin _ _ _ _ _ H Hin) as (k & f & c & rt & b & K & _ & Hall & Hoff & HD & Hg & _).
    rewrite Hoff, Hg. unfold green_len. cbn [green_text]. change (blen (flat_map green_text (dr_green b))) with (glen (dr_green b)).
    rewrite (Dress_glen _ _ _ _ HD). pose proof (Lexed_text _ _ (pd_lex _ _ _ _ H)) as Ht. rewrite <- rt_of_text, Hall in Ht.
    rewrite (Dress_used _ _ _ _ HD) in Ht. rewrite Ht, !texts_app, !blen_app. lia.
Qed.

Lemma validate_list_in l es : validate_list l = Ok es -> forall e, In e es -> exists x xs, In x l /\ validate_node x = Ok xs /\ In e xs.
Proof.
  revert es. induction l as [|x l IH]; intros es H e He; [injection H as <-; destruct He|]. cbn [validate_list] in H.
  apply rbind_ok in H as (xs & Hx & H). apply rbind_ok in H as (ys & Hy & H). injection H as <-.
  apply in_app_iff in He as [He|He]; [exists x, xs; split; [now left|auto]|].
  destruct (IH _ Hy _ He) as (x' & xs' & H1 & H2). exists x', xs'. split; [now right|exact H2].
Qed.

Lemma validate_expr_stmt_range e x : In x (validate_expr_stmt e) ->
  r_start (e_range x) <= r_end (e_range x) /\ r_end (e_range x) <= el_off e + green_len (el_green e).
Proof.
  unfold validate_expr_stmt. destruct (expr_stmt_multival e) as [mv|] eqn:Em.
  - assert (Hmv : el_off mv + green_len (el_green mv) <= el_off e + green_len (el_green e)).
    { unfold expr_stmt_multival, ast_child in Em. apply (child_range (is_kind KMultivalExpr)).
      destruct (ast_children _ e); [discriminate|]. injection Em as ->. now left. }
    rewrite !in_app_iff. intros [H|[H|H]].
    + apply in_map_iff in H as (y & <- & Hy). apply filter_In in Hy as [Hy _]. apply child_range in Hy. cbn. lia.
    + destruct (_ =? 0); [|destruct H]. destruct H as [<-|[]]. cbn. lia.
    + destruct (1 <? _); [|destruct H]. destruct H as [<-|[]]. cbn [e_range el_range r_start r_end]. lia.
  - intros [<-|[]]. cbn [e_range el_range r_start r_end]. lia.
Qed.
Lemma validate_assign_range e x : In x (validate_assign e) ->
  r_start (e_range x) <= r_end (e_range x) /\ r_end (e_range x) <= el_off e + green_len (el_green e).
Proof.
  unfold validate_assign. destruct (assign_lhs e) as [mv|] eqn:Em; [destruct (assign_rhs e)|].
  - assert (Hmv : el_off mv + green_len (el_green mv) <= el_off e + green_len (el_green e)).
    { unfold assign_lhs in Em. apply (child_range (is_kind KMultivalExpr)). exact (nth_error_In _ _ Em). }
    intros H. apply in_map_iff in H as (y & <- & Hy). apply filter_In in Hy as [Hy _]. apply child_range in Hy. cbn. lia.
  - intros [<-|[]]. cbn [e_range el_range r_start r_end]. lia.
  - intros [<-|[]]. cbn [e_range el_range r_start r_end]. lia.
Qed.

Lemma errors_of_nil toks : forall es pos, length es = length toks -> errors_of pos toks es = [] -> Forall (fun e => e = None) es.
Proof.
  induction toks as [|k toks IH]; intros [|e es] pos Hl H; try discriminate Hl; [constructor|]. cbn [errors_of] in H.
  destruct e; [discriminate|]. constructor; [reflexivity|]. apply (IH es (pos + t_len k)); [cbn in Hl; lia|exact H].
Qed.

(** The lexer step behind a token of the list. *)
Lemma Lexed_in t ls k e x : Lexed t ls -> In (k, e, x) ls -> exists b, Step k e x b.
Proof.
  induction 1 as [|k' e' l b ls Hl Hd Hls IH]; [intros []|]. intros [E|Hin]; [|exact (IH Hin)].
  injection E as -> -> ->. exists b. exact (dlex_step _ _ _ _ Hl Hd).
Qed.

Lemma parsed_validate_range t ls fs a es e : parsed t ls fs a -> validate (root_elem (root_of a)) = Ok es -> In e es ->
  r_start (e_range e) <= r_end (e_range e) /\ r_end (e_range e) <= S (blen t) /\
  (errors_of 0 (map lt_tok ls) (map lt_err ls) = [] -> r_end (e_range e) <= blen t).
Proof.
  intros H Hv He. destruct (validate_list_in _ _ Hv _ He) as (n & xs & Hn & Hx & Hin). pose proof (parsed_in_text _ _ _ _ _ H Hn) as Hr.
  unfold validate_node in Hx. destruct (el_kind n) eqn:Hk; try (injection Hx as <-; destruct Hin; fail).
  - injection Hx as <-. apply validate_assign_range in Hin. repeat split; try lia.
  - injection Hx as <-. apply validate_expr_stmt_range in Hin. repeat split; try lia.
  - destruct (parsed_literal _ _ _ _ _ H Hn Hk) as (k & x & c & r & Hl & Hg & Hrt & Hoff).
    unfold validate_literal, literal_kind_of in Hx. destruct n as [off g]. cbn [el_green el_off] in *. subst g.
    rewrite (literal_token_one _ _ _ (literal_nontriv _ Hl)) in Hx. cbn [rbind] in Hx.
    unfold el_kind in Hx. cbn [el_green green_kind] in Hx. cbn in Hl.
    repeat destruct Hl as [<-|Hl]; cbn [rbind] in Hx; try (injection Hx as <-; destruct Hin; fail); [|destruct Hl].
    cbn [green_text el_off] in Hx. apply rbind_ok in Hx as (o & Hu & Hx). destruct o as [[o body]|]; [|injection Hx as <-; destruct Hin].
    apply rbind_ok in Hx as (_ & _ & Hx). apply rbind_ok in Hx as (_ & _ & Hx). injection Hx as <-.
    pose proof (unescape_range (S (length body)) 0 (off + o) body) as HR. rewrite Forall_forall in HR. specialize (HR _ Hin). cbn beta in HR.
    destruct (unquote_len _ _ _ Hu) as (U1 & U2 & U3). unfold green_len in Hr. cbn [green_text flat_map] in Hr. rewrite app_nil_r in Hr.
    repeat split; try lia. intros Hnil. enough (Hb : ~ half_bracket x) by (specialize (U3 Hb); lia).
    intros Hb. apply errors_of_nil in Hnil; [|now rewrite !map_length].
    assert (Hx : In (KStr, x) (rt_of ls)) by (rewrite Hrt; apply in_app_iff; right; now left).
    unfold rt_of in Hx. apply in_map_iff in Hx as ([[k' e'] x'] & E & Hin'). cbn [fst snd] in E. injection E as -> ->.
    destruct (Lexed_in _ _ _ _ _ (pd_lex _ _ _ _ H) Hin') as [b Hs].
    apply (half_bracket_err _ _ _ Hs Hb). rewrite Forall_forall in Hnil. apply (Hnil e').
    apply in_map_iff. exists (KStr, e', x). auto.
Qed.
