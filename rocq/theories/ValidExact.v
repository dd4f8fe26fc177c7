(** ValidExact.v — exactness of escape validation, and the shape of expression and statement nodes. *)
From Verif Require Import Base SyntaxKind TokenSet Lexer LexSpec LexerDirect LexerProofs LexerClass LexerNum LexerFwd BindingPowers Parser Grammar
  Event EventProofs Tree TreeSink ParserTree SinkProofs GrammarSpec ParserTotal Ast ParseSpec ParseProofs DressProofs
  Validation ValidProofs ValidSpec.

Lemma escape_ok_spec c : escape_ok c = true <-> In c supported.
Proof.
  unfold escape_ok. rewrite existsb_exists. split.
  - intros (x & Hx & E). apply N.eqb_eq in E as ->. exact Hx.
  - intros H. exists c. split; [exact H|apply N.eqb_refl].
Qed.

Lemma segmented_total body : exists l, segmented body l.
Proof.
  enough (H : forall n b, length b <= n -> exists l, segmented b l) by (apply (H (length body)); lia).
  clear. induction n as [|n IH]; intros [|c b] Hn; try (cbn in Hn; lia); try (exists []; split; [exact I|reflexivity]).
  destruct (N.eq_dec c 92) as [->|Hc].
  - destruct b as [|d b]; [exists [Dangling]; split; [reflexivity|reflexivity]|].
    destruct (IH b) as (l & H1 & H2); [cbn in Hn; lia|]. exists (Esc d :: l). split; [exact H1|]. cbn. now rewrite H2.
  - destruct (IH b) as (l & H1 & H2); [cbn in Hn; lia|]. exists (Plain c :: l). split; [split; assumption|]. cbn. now rewrite H2.
Qed.

Lemma unescape_exact l : forall fuel pos start body, segmented body l -> length body < fuel ->
  exists rs, unescape fuel pos start body = map (mkErr ESCAPE_MSG) rs /\ bad_ranges (pos + start) l rs.
Proof.
  induction l as [|s l IH]; intros fuel pos start body [Hok Hb] Hf; cbn [map concat] in Hb; subst body.
  - destruct fuel; [lia|]. exists []. split; [reflexivity|constructor].
  - destruct fuel as [|fuel]; [lia|]. destruct s as [c|c|]; cbn [seg_text app] in *.
    + destruct Hok as [Hc Hok]. cbn [unescape]. replace (c =? backslash)%N with false by (symmetry; now apply N.eqb_neq).
      destruct (IH fuel (pos + utf8_len c) start (concat (map seg_text l))) as (rs & E & R); [split; auto|cbn in Hf; lia|].
      exists rs. split; [exact E|]. apply br_good; [intros []|]. cbn [seg_text]. unfold blen. cbn [blen]. rewrite Nat.add_0_r.
      replace (pos + start + utf8_len c) with (pos + utf8_len c + start) by lia. exact R.
    + cbn [unescape]. change (92 =? backslash)%N with true. cbn iota.
      destruct (IH fuel (pos + utf8_len backslash + utf8_len c) start (concat (map seg_text l))) as (rs & E & R); [split; auto|cbn in Hf; lia|].
      change (utf8_len 92%N) with 1. change (utf8_len backslash) with 1 in *.
      assert (El : blen (seg_text (Esc c)) = 1 + utf8_len c) by (cbn [seg_text]; rewrite !blen_cons; change (utf8_len 92%N) with 1; cbn [blen]; lia).
      assert (R' : bad_ranges (pos + start + blen (seg_text (Esc c))) l rs).
      { rewrite El. replace (pos + start + (1 + utf8_len c)) with (pos + 1 + utf8_len c + start) by lia. exact R. }
      destruct (escape_ok c) eqn:Ec.
      * exists rs. split; [exact E|]. apply br_good; [|exact R']. cbn [bad]. apply escape_ok_spec in Ec. auto.
      * exists (mkRange (pos + start) (pos + (1 + utf8_len c) + start) :: rs). split; [cbn [map]; now rewrite <- E|].
        replace (pos + (1 + utf8_len c) + start) with (pos + start + blen (seg_text (Esc c))) by (rewrite El; lia).
        apply br_bad; [|exact R']. cbn [bad]. intros H. apply escape_ok_spec in H. congruence.
    + cbn [segs_ok] in Hok. subst l. cbn [map concat app unescape]. change (92 =? backslash)%N with true. cbn iota.
      exists [mkRange (pos + start) (pos + 1 + start)]. split; [reflexivity|].
      replace (pos + 1 + start) with (pos + start + blen (seg_text Dangling)) by (cbn; lia). apply br_bad; [exact I|constructor].
Qed.

Lemma removelast_last (A : Type) (x : list A) c : removelast (x ++ [c]) = x.
Proof. rewrite removelast_app by discriminate. cbn. apply app_nil_r. Qed.

(** The body of a short string. *)
Lemma unquote_short q m : quote_char q -> unquote ([q] ++ m ++ [q]) = Ok (Some (1, m)).
Proof.
  intros Hq. cbn [app]. unfold unquote.
  replace ((q =? squote)%N || (q =? dquote)%N) with true by (destruct Hq as [-> | ->]; reflexivity).
  change (q :: m ++ [q]) with ((q :: m) ++ [q]). rewrite last_is_app, N.eqb_refl. cbn [negb orb].
  replace (blen ((q :: m) ++ [q]) =? 1) with false; [now rewrite removelast_last|].
  symmetry. apply Nat.eqb_neq. rewrite blen_app, !blen_cons. pose proof (utf8_len_pos q). cbn [blen]. lia.
Qed.
Lemma unquote_short_open q m : quote_char q -> last (q :: m) 0%N <> q \/ m = [] -> unquote (q :: m) = Ok None.
Proof.
  intros Hq H. unfold unquote. replace ((q =? squote)%N || (q =? dquote)%N) with true by (destruct Hq as [-> | ->]; reflexivity).
  destruct m as [|c m] using rev_ind.
  - replace (blen [q] =? 1) with true by (destruct Hq as [-> | ->]; reflexivity). rewrite orb_true_r. reflexivity.
  - clear IHm. destruct H as [H|H]; [|destruct m; discriminate]. change (q :: m ++ [c]) with ((q :: m) ++ [c]) in *.
    rewrite last_is_app. rewrite last_last in H. apply not_eq_sym in H. apply N.eqb_neq in H. rewrite H. reflexivity.
Qed.

Lemma take_while_repeat n r : hd_is eqs r = false -> take_while (N.eqb eqs) (repeat eqs n ++ r) = repeat eqs n.
Proof.
  intros H. induction n as [|n IH]; cbn [repeat app take_while].
  - destruct r as [|c r]; [reflexivity|]. cbn [take_while hd_is] in *. now rewrite N.eqb_sym, H.
  - change (eqs =? eqs)%N with true. cbn iota. now rewrite IH.
Qed.
Lemma rev_repeat {A} (x : A) n : rev (repeat x n) = repeat x n.
Proof. induction n as [|n IH]; [reflexivity|]. cbn [repeat rev]. rewrite IH. symmetry. apply repeat_cons. Qed.

(** The body of a long string. *)
Lemma unquote_long n m : unquote (long_open n ++ m ++ long_close n) = Ok (Some (2 + n, m)).
Proof.
  unfold long_open, long_close. change (txt "[") with [lbr]. change (txt "]") with [rbr]. change 61%N with eqs.
  rewrite <- !app_assoc. cbn [app]. unfold unquote. change ((lbr =? squote)%N || (lbr =? dquote)%N) with false. change (lbr =? lbr)%N with true. cbn iota.
  rewrite take_while_repeat by reflexivity. rewrite repeat_length.
  rewrite skipn_app, repeat_length, Nat.sub_diag, skipn_all2 by (rewrite repeat_length; lia). cbn [app skipn]. change (lbr =? lbr)%N with true. cbn iota.
  assert (HT : forall Y : text, Y = ((m ++ [rbr]) ++ repeat eqs n) ++ [rbr] ->
    (if last_is rbr Y then
       if last_is rbr (firstn (length (removelast Y) - length (take_while (N.eqb eqs) (rev (removelast Y)))) (removelast Y))
       then removelast (firstn (length (removelast Y) - length (take_while (N.eqb eqs) (rev (removelast Y)))) (removelast Y))
       else firstn (length (removelast Y) - length (take_while (N.eqb eqs) (rev (removelast Y)))) (removelast Y)
     else Y) = m).
  { intros Y ->. rewrite last_is_app, N.eqb_refl, removelast_last.
    rewrite rev_app_distr, rev_repeat, take_while_repeat by (rewrite rev_app_distr; reflexivity).
    rewrite (app_length (m ++ [rbr])), !repeat_length. replace (length (m ++ [rbr]) + n - n) with (length (m ++ [rbr]) + 0) by lia.
    rewrite firstn_app_2. cbn [firstn]. rewrite app_nil_r, last_is_app, N.eqb_refl, removelast_last. reflexivity. }
  rewrite HT; [reflexivity|]. rewrite <- !app_assoc. reflexivity.
Qed.

(** Validation of a literal node holding a string token. *)
Lemma validate_str off x o body l : unquote x = Ok (Some (o, body)) -> segmented body l -> fits_u32 (off + blen x) = true ->
  o + blen body <= blen x ->
  exists rs, validate_node (mkElem off (GNode KLiteral [GTok KStr x])) = Ok (map (mkErr ESCAPE_MSG) rs) /\ bad_ranges (off + o) l rs.
Proof.
  intros Hu Hs Hf Hle. unfold validate_node. change (el_kind _) with KLiteral. cbn iota. unfold validate_literal, literal_kind_of.
  rewrite literal_token_one by reflexivity. cbn [rbind]. change (el_kind _) with KStr. cbn iota. cbn [rbind el_green green_text el_off].
  rewrite Hu. cbn [rbind]. rewrite (fits_le (off + blen x) (off + o)) by (lia || exact Hf). cbn [rassert rbind].
  destruct (unescape_exact l (S (length body)) 0 (off + o) body Hs (Nat.lt_succ_diag_r _)) as (rs & E & R). cbn [Nat.add] in R.
  rewrite E. rewrite forallb_Forall.
  - cbn [rassert rbind]. exists rs. split; [reflexivity|exact R].
  - pose proof (unescape_range (S (length body)) 0 (off + o) body) as HR. rewrite E in HR. eapply Forall_impl; [|exact HR].
    intros e He. cbn beta in He. apply (fits_le (off + blen x)); [lia|exact Hf].
Qed.

(** ** Shapes of expression and statement nodes *)
Definition expr_forest (f : forest) : Prop := exists k fs, In k expr_kinds /\ f = [PNode k fs].
Definition err_forest (f : forest) : Prop := exists e, f = [PErr e] \/ exists fs, f = [PErrN fs e].
Definition stmt_forest (f : forest) : Prop := exists k fs, In k stmt_kinds /\ f = [PNode k fs].
(** The kinds of the nodes of a forest. *)
Definition tkinds (t : ptree) : list kind :=
  match t with PNode k _ => [k] | PErrN _ _ => [KError] | PTok _ | PErr _ => [] end.
Definition nkinds (f : forest) : list kind := flat_map tkinds f.
Lemma nkinds_app a b : nkinds (a ++ b) = nkinds a ++ nkinds b.
Proof. apply flat_map_app. Qed.

Definition exprs_ok (ks : list kind) : Prop := Forall (fun k => In k expr_kinds \/ k = KError) ks.
Definition stmts_ok (ks : list kind) : Prop := Forall (fun k => In k stmt_kinds \/ k = KError) ks.

Lemma is_err_nkinds s f : is_err s f -> nkinds f = [] \/ nkinds f = [KError].
Proof. intros (_ & e & [->|(ks & ->)]); [left|right]; reflexivity. Qed.
Lemma is_err_exprs s f : is_err s f -> exprs_ok (nkinds f) /\ stmts_ok (nkinds f).
Proof. intros H. apply is_err_nkinds in H as [-> | ->]; split; repeat constructor; now right. Qed.

(** What the nodes directly under each nonterminal are. *)
Definition shape (n : nt) (f : forest) : Prop :=
  match n with
  | NStmts | NStmt => stmts_ok (nkinds f)
  | NMulti => nkinds f = [KMultivalExpr]
  | NExprO | NMultiTail => exprs_ok (nkinds f)
  | NExpr | NLhs | NPost _ => exprs_ok (nkinds f)
  | _ => True
  end.
Lemma Tree_shape s n f : Tree s n f -> shape n f.
Proof.
  induction 1; cbn [shape] in *; auto; try exact I;
    try (apply is_err_exprs in H as [A B]; assumption);
    try (repeat constructor; left; cbn; tauto); try reflexivity; try (constructor; fail).
  - rewrite !nkinds_app. apply Forall_app. split; [assumption|]. apply Forall_app. split; [|assumption].
    match goal with X : _ = [] \/ _ = [PTok KSemicolon] |- _ => destruct X as [->| ->]; constructor end.
  - change (nkinds (PTok KComma :: e ++ t)) with (nkinds (e ++ t)). rewrite nkinds_app. apply Forall_app. auto.
Qed.

Definition local2 (k : kind) (fs : forest) : Prop :=
  (k = KMultivalExpr -> exprs_ok (nkinds fs)) /\ (k = KBlock -> stmts_ok (nkinds fs)) /\
  (k = KExprStmt -> nkinds fs = [KMultivalExpr]) /\ (k = KAssignStmt -> nkinds fs = [KMultivalExpr; KMultivalExpr]) /\
  (k = KInfixExpr -> exists a b o, fs = a :: PTok o :: b /\ In o binary_ops /\ exprs_ok (nkinds [a]) /\ exprs_ok (nkinds b)).

Lemma every2_toks ks e : every local2 [PErrN (map PTok ks) e].
Proof. apply every_errn. split; [|apply every_toks]. repeat split; discriminate. Qed.
Lemma every2_is_err s f : is_err s f -> every local2 f.
Proof. intros (_ & e & [->|(ks & ->)]); [constructor|apply every2_toks]. Qed.
Lemma every2_junk j : Forall junk j -> every local2 j.
Proof.
  induction 1 as [|t j Ht _ IH]; [constructor|]. apply every_cons. split; [|exact IH].
  destruct Ht as [(ks & e & ->)|(s & Hs & ->)]; [apply every2_toks|]. apply every_node. split; [|constructor]. repeat split; discriminate.
Qed.
Lemma every2_opt s x : x = [] \/ is_err s x -> every local2 x.
Proof. intros [->|H]; [constructor|now apply every2_is_err in H]. Qed.

Lemma Tree_every2 s n f : Tree s n f -> every local2 f.
Proof.
  intros HT. assert (HS : shape n f) by exact (Tree_shape _ _ _ HT). revert HS.
  induction HT; intros HS;
    repeat match goal with H : Tree _ ?n ?f, IH : shape ?n ?f -> _ |- _ => specialize (IH (Tree_shape _ _ _ H)) end;
    repeat (first
    [ match goal with
      | H : every _ ?f |- every _ ?f => exact H
      | |- every _ (_ ++ _) => apply every_app; split
      | |- every _ [] => apply every_nil
      | |- every _ [PTok _] => apply every_tok
      | |- every _ [PNode _ _] => apply every_node; split
      | |- every _ (_ :: _) => apply every_cons; split
      | H : req _ _ ?f |- every _ ?f => exact (every_req _ _ _ _ H)
      | H : is_err _ ?f |- every _ ?f => exact (every2_is_err _ _ H)
      | H : Forall junk ?f |- every _ ?f => exact (every2_junk _ H)
      | H : ?sc = [] \/ ?sc = [PTok KSemicolon] |- every _ ?sc => exact (every_sc _ _ H)
      | H : ?sc = [] \/ is_err _ ?sc |- every _ ?sc => exact (every2_opt _ _ H)
      end ]); try (repeat split; discriminate).
  - (* block *) repeat split; try discriminate. intros _. exact (Tree_shape _ _ _ HT).
  - (* assign *) repeat split; try discriminate. intros _. rewrite nkinds_app.
    change (nkinds (PTok KEq :: e)) with (nkinds e). rewrite (Tree_shape _ _ _ HT1), (Tree_shape _ _ _ HT2). reflexivity.
  - (* expr stmt *) repeat split; try discriminate. intros _. exact (Tree_shape _ _ _ HT).
  - (* multival *) repeat split; try discriminate. intros _. rewrite nkinds_app. apply Forall_app. split; [exact (Tree_shape _ _ _ HT1)|exact (Tree_shape _ _ _ HT2)].
  - (* infix *) repeat split; try discriminate. intros _. exists t, r, o. split; [reflexivity|]. split; [assumption|].
    split; [exact (Tree_shape _ _ _ HT1)|exact (Tree_shape _ _ _ HT2)].
Qed.

(** ** Children of nodes *)
Lemma place_app off a b : place off (a ++ b) = place off a ++ place (off + glen a) b.
Proof.
  revert off. induction a as [|c a IH]; intros off; cbn [app place].
  - unfold glen. cbn. now rewrite Nat.add_0_r.
  - rewrite IH. replace (off + glen (c :: a)) with (off + green_len c + glen a); [reflexivity|].
    unfold glen, green_len. cbn [flat_map]. rewrite blen_app. lia.
Qed.
Lemma place_kinds off cs : map el_kind (filter (fun c => is_gnode (el_green c)) (place off cs)) = map green_kind (filter is_gnode cs).
Proof.
  revert off. induction cs as [|c cs IH]; intros off; [reflexivity|]. cbn [place filter el_green]. destruct (is_gnode c); cbn [map]; now rewrite IH.
Qed.
Lemma gtok_nodes l : filter is_gnode (map gtok l) = [].
Proof. induction l as [|p l IH]; [reflexivity|]. exact IH. Qed.
Lemma Dress_nkinds f pos rt a : Dress f pos rt a -> map green_kind (filter is_gnode (dr_green a)) = nkinds f.
Proof.
  induction 1; cbn [dr_green]; auto.
  - rewrite !filter_app, gtok_nodes. exact IHDress.
  - rewrite !filter_app, gtok_nodes. cbn [filter is_gnode app map green_kind]. change (nkinds (PErrN fs e :: gs)) with (KError :: nkinds gs). now rewrite IHDress2.
  - rewrite !filter_app, gtok_nodes. cbn [filter is_gnode app map green_kind]. change (nkinds (PNode k fs :: gs)) with (k :: nkinds gs). now rewrite IHDress2.
Qed.

(** Children of a node of the tree are nodes of the tree. *)
Lemma descs_place off cs c x : In c (place off cs) -> In x (el_descendants c) -> In x (descs off cs).
Proof.
  revert off. induction cs as [|g cs IH]; intros off; [intros []|]. cbn [place descs]. intros [<-|H] Hx; apply in_app_iff; [left; exact Hx|right; eauto].
Qed.
Lemma place_descs off cs x : In x (descs off cs) -> exists c, In c (place off cs) /\ In x (el_descendants c).
Proof.
  revert off. induction cs as [|g cs IH]; intros off; [intros []|]. cbn [place descs]. intros H. apply in_app_iff in H as [H|H].
  - exists (mkElem off g). split; [now left|exact H].
  - destruct (IH _ H) as (c & H1 & H2). exists c. split; [now right|exact H2].
Qed.
Lemma el_desc_self e : is_gnode (el_green e) = true -> In e (el_descendants e).
Proof. destruct e as [off [k cs|k t]]; [|discriminate]. intros _. unfold el_descendants. cbn [el_off el_green]. rewrite descendants_node. now left. Qed.
Lemma desc_child g : forall off e c, In e (descendants_at off g) -> In c (el_children e) -> In c (descendants_at off g).
Proof.
  induction g as [g IH] using (well_founded_induction (Wf_nat.well_founded_ltof _ (fix sz (g : green) := match g with GNode _ cs => S (list_sum (map sz cs)) | GTok _ _ => 0 end))).
  intros off e c He Hc. destruct g as [k cs|k t]; [|destruct He]. rewrite descendants_node in *. destruct He as [<-|He].
  - right. unfold el_children, el_children_with_tokens in Hc. cbn [el_green el_off] in Hc. apply filter_In in Hc as [Hc Hg].
    apply (descs_place _ _ _ _ Hc). now apply el_desc_self.
  - right. apply place_descs in He as (d & Hd & He). apply (descs_place _ _ _ _ Hd). unfold el_descendants in *. destruct d as [o g]. cbn [el_off el_green] in *.
    refine (IH g _ o e c He Hc). unfold ltof. assert (Hin : In g cs).
    { clear -Hd. revert off Hd. induction cs as [|x cs IH]; intros off; [intros []|]. cbn [place]. intros [E|H]; [left; now injection E|right; eauto]. }
    clear -Hin. induction cs as [|x cs IHc]; [destruct Hin|]. cbn [map list_sum fold_right]. unfold list_sum in *. cbn [fold_right]. destruct Hin as [->|Hin]; [lia|].
    specialize (IHc Hin). lia.
Qed.
Lemma parsed_child t ls fs a e c : parsed t ls fs a -> In e (descs 0 (dr_green a)) -> In c (el_children e) -> In c (descs 0 (dr_green a)).
Proof.
  intros _ He Hc. apply place_descs in He as (d & Hd & He). apply (descs_place _ _ _ _ Hd). unfold el_descendants in *. exact (desc_child _ _ _ _ He Hc).
Qed.

(** The node children of a node of a parsed tree have the kinds of its subtree. *)
Lemma parsed_children t ls fs a e : parsed t ls fs a -> In e (descs 0 (dr_green a)) ->
  exists f, In (el_kind e, f) (fsubs fs) /\ map el_kind (el_children e) = nkinds f /\ local2 (el_kind e) f.
Proof.
  intros H Hin. destruct (parsed_origin _ _ _ _ _ H Hin) as (k & f & c & rt & b & K & Hs & _ & _ & HD & Hg & _).
  assert (Ek : el_kind e = k) by (unfold el_kind; now rewrite Hg). exists f. rewrite Ek. split; [exact Hs|]. split.
  - unfold el_children, el_children_with_tokens. rewrite Hg, place_kinds. exact (Dress_nkinds _ _ _ _ HD).
  - exact (every_in _ _ _ _ (Tree_every2 _ _ _ (pd_tree _ _ _ _ H)) Hs).
Qed.
