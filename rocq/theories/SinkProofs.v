(** SinkProofs.v — the tree sinks of text_tree_sink.rs build, from the calls for a forest, the
    green tree obtained by dressing that forest with the raw tokens. *)
From Verif Require Import Base SyntaxKind TokenSet Lexer Parser Grammar ParserTree Event EventProofs
  Tree TreeSink.

(** A raw token with its text. *)
Definition rtok := (kind * text)%type.
Definition texts (l : list rtok) : text := flat_map snd l.
Definition mktok (p : rtok) : token := mkToken (fst p) (blen (snd p)).
Definition gtok (p : rtok) : green := GTok (fst p) (snd p).
Definition triv (p : rtok) : bool := is_trivia (fst p).
Definition nontriv (l : list rtok) : list rtok := filter (fun p => negb (triv p)) l.

(** Leading trivia, and the rest. *)
Fixpoint eat (l : list rtok) : list rtok * list rtok :=
  match l with
  | p :: l' => if triv p then let (a, b) := eat l' in (p :: a, b) else ([], l)
  | [] => ([], [])
  end.

(** Dressing a tree with raw tokens from position [pos]: the green elements, the errors, the raw
    tokens used, the raw tokens left. *)
Record dressed := mkDr
  { dr_green : list green; dr_errs : list syntax_error;
    dr_used : list rtok; dr_left : list rtok }.

Fixpoint dress (t : ptree) (pos : nat) (rt : list rtok) {struct t} : option dressed :=
  let go := fix go (fs : list ptree) (pos : nat) (rt : list rtok) {struct fs} : option dressed :=
    match fs with
    | [] => Some (mkDr [] [] [] rt)
    | t :: fs' =>
      match dress t pos rt with
      | None => None
      | Some a =>
        match go fs' (pos + blen (texts (dr_used a))) (dr_left a) with
        | None => None
        | Some b => Some (mkDr (dr_green a ++ dr_green b) (dr_errs a ++ dr_errs b)
                               (dr_used a ++ dr_used b) (dr_left b))
        end
      end
    end in
  match t with
  | PTok _ =>
    let (tr, rest) := eat rt in
    match rest with
    | [] => None
    | p :: rest' => Some (mkDr (map gtok tr ++ [gtok p]) [] (tr ++ [p]) rest')
    end
  | PErr e => Some (mkDr [] [mkErr (perr_display e) (mkRange pos pos)] [] rt)
  | PErrN fs e =>
    let (tr, rest) := eat rt in
    let p0 := pos + blen (texts tr) in
    match go fs p0 rest with
    | None => None
    | Some a => Some (mkDr (map gtok tr ++ [GNode KError (dr_green a)])
                           (dr_errs a ++ [mkErr (perr_display e)
                              (mkRange p0 (p0 + blen (texts (dr_used a))))])
                           (tr ++ dr_used a) (dr_left a))
    end
  | PNode k fs =>
    let (tr, rest) := eat rt in
    let p0 := pos + blen (texts tr) in
    match go fs p0 rest with
    | None => None
    | Some a => Some (mkDr (map gtok tr ++ [GNode k (dr_green a)]) (dr_errs a)
                           (tr ++ dr_used a) (dr_left a))
    end
  end.

Fixpoint dress_f (fs : list ptree) (pos : nat) (rt : list rtok) {struct fs} : option dressed :=
  match fs with
  | [] => Some (mkDr [] [] [] rt)
  | t :: fs' =>
    match dress t pos rt with
    | None => None
    | Some a =>
      match dress_f fs' (pos + blen (texts (dr_used a))) (dr_left a) with
      | None => None
      | Some b => Some (mkDr (dr_green a ++ dr_green b) (dr_errs a ++ dr_errs b)
                             (dr_used a ++ dr_used b) (dr_left b))
      end
    end
  end.

Lemma dress_node k fs pos rt :
  dress (PNode k fs) pos rt =
  let (tr, rest) := eat rt in
  match dress_f fs (pos + blen (texts tr)) rest with
  | None => None
  | Some a => Some (mkDr (map gtok tr ++ [GNode k (dr_green a)]) (dr_errs a)
                         (tr ++ dr_used a) (dr_left a))
  end.
Proof.
  cbn [dress]. destruct (eat rt) as [tr rest]. generalize (pos + blen (texts tr)) as p.
  intros p. 
  match goal with |- context [(fix go (fs : list ptree) (pos : nat) (rt : list rtok) {struct fs} := _) fs p rest] =>
    replace ((fix go (fs : list ptree) (pos : nat) (rt : list rtok) {struct fs} : option dressed :=
      match fs with
      | [] => Some (mkDr [] [] [] rt)
      | t :: fs' =>
        match dress t pos rt with
        | None => None
        | Some a =>
          match go fs' (pos + blen (texts (dr_used a))) (dr_left a) with
          | None => None
          | Some b => Some (mkDr (dr_green a ++ dr_green b) (dr_errs a ++ dr_errs b)
                                 (dr_used a ++ dr_used b) (dr_left b))
          end
        end
      end) fs p rest) with (dress_f fs p rest); [reflexivity|] end.
  clear. revert p rest; induction fs as [|t fs IH]; intros p rest; [reflexivity|].
  cbn [dress_f]. destruct (dress t p rest) as [a|]; [|reflexivity]. now rewrite IH.
Qed.

Lemma dress_errn fs e pos rt :
  dress (PErrN fs e) pos rt =
  let (tr, rest) := eat rt in
  let p0 := pos + blen (texts tr) in
  match dress_f fs p0 rest with
  | None => None
  | Some a => Some (mkDr (map gtok tr ++ [GNode KError (dr_green a)])
                         (dr_errs a ++ [mkErr (perr_display e)
                            (mkRange p0 (p0 + blen (texts (dr_used a))))])
                         (tr ++ dr_used a) (dr_left a))
  end.
Proof.
  cbn [dress]. destruct (eat rt) as [tr rest]. cbv zeta. generalize (pos + blen (texts tr)) as p.
  intros p.
  match goal with |- context [(fix go (fs : list ptree) (pos : nat) (rt : list rtok) {struct fs} := _) fs p rest] =>
    replace ((fix go (fs : list ptree) (pos : nat) (rt : list rtok) {struct fs} : option dressed :=
      match fs with
      | [] => Some (mkDr [] [] [] rt)
      | t :: fs' =>
        match dress t pos rt with
        | None => None
        | Some a =>
          match go fs' (pos + blen (texts (dr_used a))) (dr_left a) with
          | None => None
          | Some b => Some (mkDr (dr_green a ++ dr_green b) (dr_errs a ++ dr_errs b)
                                 (dr_used a ++ dr_used b) (dr_left b))
          end
        end
      end) fs p rest) with (dress_f fs p rest); [reflexivity|] end.
  clear. revert p rest; induction fs as [|t fs IH]; intros p rest; [reflexivity|].
  cbn [dress_f]. destruct (dress t p rest) as [a|]; [|reflexivity]. now rewrite IH.
Qed.

(** Induction over trees and forests. *)
Section PtreeInd.
Variable P1 : ptree -> Prop.
Variable PF : list ptree -> Prop.
Hypothesis Htok : forall k, P1 (PTok k).
Hypothesis Herr : forall e, P1 (PErr e).
Hypothesis Herrn : forall fs e, PF fs -> P1 (PErrN fs e).
Hypothesis Hnode : forall k fs, PF fs -> P1 (PNode k fs).
Hypothesis Hnil : PF [].
Hypothesis Hcons : forall t fs, P1 t -> PF fs -> PF (t :: fs).
Fixpoint ptree_ind' (t : ptree) : P1 t :=
  let go := fix go (fs : list ptree) : PF fs :=
    match fs with [] => Hnil | t :: fs' => Hcons t fs' (ptree_ind' t) (go fs') end in
  match t with
  | PTok k => Htok k
  | PErr e => Herr e
  | PErrN fs e => Herrn fs e (go fs)
  | PNode k fs => Hnode k fs (go fs)
  end.
Fixpoint forest_ind' (fs : list ptree) : PF fs :=
  match fs with [] => Hnil | t :: fs' => Hcons t fs' (ptree_ind' t) (forest_ind' fs') end.
End PtreeInd.

(** ** The plain sink in canonical form *)

Definition ksink (c rt : list rtok) (b : builder) (es : list syntax_error) (st : list nat) : tsink :=
  mkSink (texts (c ++ rt)) (map mktok (c ++ rt)) (blen (texts c)) (length c) b es
         (map (fun x => mkRange x (blen (texts c))) st).

Definition b_add (b : builder) (gs : list green) : builder :=
  mkB (b_parents b) (b_children b ++ gs).

Lemma texts_app a b : texts (a ++ b) = texts a ++ texts b.
Proof. apply flat_map_app. Qed.

Lemma blen_texts1 p : blen (texts [p]) = blen (snd p).
Proof. unfold texts. cbn [flat_map]. now rewrite app_nil_r. Qed.

Lemma b_add_add b x y : b_add (b_add b x) y = b_add b (x ++ y).
Proof. unfold b_add; cbn. now rewrite app_assoc. Qed.
Lemma b_add_nil b : b_add b [] = b.
Proof. destruct b; unfold b_add; cbn. now rewrite app_nil_r. Qed.

Definition starts_ok (c : list rtok) (st : list nat) := Forall (fun x => x <= blen (texts c)) st.

Lemma starts_ok_app c w st : starts_ok c st -> starts_ok (c ++ w) st.
Proof.
  intros H. eapply Forall_impl; [|exact H]. intros x Hx. cbn beta in *.
  rewrite texts_app, blen_app. lia.
Qed.

Lemma do_token_k c p rt b es st : starts_ok c st ->
  do_token (ksink c (p :: rt) b es st) = Ok (ksink (c ++ [p]) rt (b_add b [gtok p]) es st).
Proof.
  intros Hst. unfold do_token, ksink. cbn [k_tokens k_token_pos k_text_pos k_text k_inner k_errors
    k_error_ranges].
  rewrite map_app. cbn [map]. rewrite nth_error_app2 by (now rewrite map_length).
  rewrite map_length, Nat.sub_diag. cbn [nth_error runwrap rbind r_start r_end].
  rewrite texts_app. change (texts (p :: rt)) with (snd p ++ texts rt).
  unfold mktok at 1 2 3 4 5. cbn [t_len t_kind].
  rewrite bslice_app. cbn [rbind]. f_equal. f_equal.
  - rewrite !texts_app. unfold texts. cbn [flat_map]. now rewrite <- !app_assoc, ?app_nil_r.
  - rewrite !map_app. cbn [map]. now rewrite <- app_assoc.
  - now rewrite texts_app, blen_app, blen_texts1.
  - rewrite app_length. cbn. lia.
  - rewrite map_map. apply map_ext_in. intros x Hx. unfold range_cover. cbn [r_start r_end].
    unfold starts_ok in Hst. rewrite Forall_forall in Hst. specialize (Hst x Hx). cbn beta in Hst.
    rewrite texts_app, blen_app, blen_texts1.
    unfold mktok; cbn. f_equal; lia.
Qed.

Lemma eat_app l tr rest : eat l = (tr, rest) -> l = tr ++ rest.
Proof.
  revert tr rest; induction l as [|p l IH]; cbn; intros tr rest H.
  - injection H as <- <-. reflexivity.
  - destruct (triv p).
    + destruct (eat l) as [a b]. injection H as <- <-. cbn. f_equal. now apply IH.
    + injection H as <- <-. reflexivity.
Qed.

Lemma eat_triv l tr rest : eat l = (tr, rest) ->
  forallb triv tr = true /\ match rest with [] => True | p :: _ => triv p = false end.
Proof.
  revert tr rest; induction l as [|p l IH]; cbn; intros tr rest H.
  - injection H as <- <-. auto.
  - destruct (triv p) eqn:Ep.
    + destruct (eat l) as [a b]. injection H as <- <-. cbn. rewrite Ep. now apply IH.
    + injection H as <- <-. auto.
Qed.

Lemma eat_eat l tr rest : eat l = (tr, rest) -> eat rest = ([], rest).
Proof.
  intros H. apply eat_triv in H as [_ H]. destruct rest as [|p r]; cbn; [reflexivity|].
  now rewrite H.
Qed.

Lemma eat_loop_k fuel c rt tr rest b es st : starts_ok c st ->
  eat rt = (tr, rest) -> length rt < fuel ->
  eat_trivias_loop fuel (ksink c rt b es st)
  = Ok (ksink (c ++ tr) rest (b_add b (map gtok tr)) es st).
Proof.
  revert c rt tr rest b; induction fuel as [|fuel IH]; intros c rt tr rest b Hst He Hf; [lia|].
  cbn [eat_trivias_loop]. destruct rt as [|p rt].
  - injection He as <- <-. unfold ksink at 1 2. cbn [k_tokens k_token_pos].
    rewrite !app_nil_r. rewrite (proj2 (nth_error_None _ _)) by (rewrite map_length; lia).
    cbn [map]. now rewrite b_add_nil.
  - unfold ksink at 1 2. cbn [k_tokens k_token_pos]. rewrite map_app. cbn [map].
    rewrite nth_error_app2 by (now rewrite map_length). rewrite map_length, Nat.sub_diag.
    cbn [nth_error]. cbn [eat] in He.
    change (is_trivia (t_kind (mktok p))) with (triv p).
    destruct (triv p) eqn:Ep.
    + destruct (eat rt) as [a r] eqn:Ea. injection He as <- <-.
      rewrite do_token_k by exact Hst. cbn [rbind].
      rewrite IH with (tr := a) (rest := r); [|now apply starts_ok_app|exact Ea|cbn in Hf; lia].
      rewrite <- app_assoc. cbn [app map]. rewrite b_add_add. reflexivity.
    + injection He as <- <-. rewrite app_nil_r. cbn [map]. now rewrite b_add_nil.
Qed.

Lemma eat_trivias_k c rt tr rest b es st : starts_ok c st ->
  eat rt = (tr, rest) ->
  eat_trivias (ksink c rt b es st) = Ok (ksink (c ++ tr) rest (b_add b (map gtok tr)) es st).
Proof.
  intros Hst He. apply eat_loop_k; [exact Hst|exact He|].
  unfold ksink; cbn [k_tokens]. rewrite map_length, app_length. lia.
Qed.

Lemma ts_start_k k c rt tr rest b es st : starts_ok c st ->
  eat rt = (tr, rest) ->
  ts_start_node k (ksink c rt b es st)
  = Ok (ksink (c ++ tr) rest (b_start k (b_add b (map gtok tr))) es st).
Proof.
  intros Hst He. unfold ts_start_node. rewrite (eat_trivias_k _ _ _ _ _ _ _ Hst He). cbn [rbind].
  change (with_inner (ksink (c ++ tr) rest (b_add b (map gtok tr)) es st)
           (b_start k (k_inner (ksink (c ++ tr) rest (b_add b (map gtok tr)) es st))))
    with (ksink (c ++ tr) rest (b_start k (b_add b (map gtok tr))) es st).
  rewrite (eat_trivias_k _ _ [] rest); [|now apply starts_ok_app|now apply (eat_eat _ _ _ He)].
  rewrite app_nil_r. cbn [map]. now rewrite b_add_nil.
Qed.

Lemma b_finish_start k b gs :
  b_finish_node (b_add (b_start k b) gs) = Ok (b_add b [GNode k gs]).
Proof.
  unfold b_finish_node, b_add, b_start. cbn [b_parents b_children].
  rewrite rev_app_distr. cbn [rev app]. rewrite removelast_last.
  rewrite firstn_app, Nat.sub_diag, firstn_all. cbn [firstn]. rewrite app_nil_r.
  rewrite skipn_app, Nat.sub_diag, skipn_all. cbn [skipn app]. reflexivity.
Qed.

Lemma ts_finish_k c rt k b gs es st :
  ts_finish_node (ksink c rt (b_add (b_start k b) gs) es st)
  = Ok (ksink c rt (b_add b [GNode k gs]) es st).
Proof.
  unfold ts_finish_node. unfold ksink at 1. cbn [k_inner]. rewrite b_finish_start. reflexivity.
Qed.

Lemma ts_steps_app l1 l2 s : ts_steps (l1 ++ l2) s = let? s1 := ts_steps l1 s in ts_steps l2 s1.
Proof.
  revert s; induction l1 as [|x l1 IH]; intros s; cbn; [reflexivity|].
  destruct (ts_step x s) as [s'| |]; cbn; [apply IH|reflexivity|reflexivity].
Qed.

(** What running the calls for a tree does to a canonical sink. *)
Definition Dr1 (t : ptree) : Prop := forall c rt b es st a, starts_ok c st ->
  dress t (blen (texts c)) rt = Some a ->
  ts_steps (flat t) (ksink c rt b es st)
  = Ok (ksink (c ++ dr_used a) (dr_left a) (b_add b (dr_green a)) (es ++ dr_errs a) st).
Definition DrF (f : list ptree) : Prop := forall c rt b es st a, starts_ok c st ->
  dress_f f (blen (texts c)) rt = Some a ->
  ts_steps (flats f) (ksink c rt b es st)
  = Ok (ksink (c ++ dr_used a) (dr_left a) (b_add b (dr_green a)) (es ++ dr_errs a) st).

Lemma ts_steps_dress : (forall t, Dr1 t) /\ (forall f, DrF f).
Proof.
  assert (Htok : forall k, Dr1 (PTok k)).
  { intros k c rt b es st a Hst H. cbn [dress] in H. destruct (eat rt) as [tr rest] eqn:He.
    destruct rest as [|p rest]; [discriminate|]. injection H as <-.
    cbn [flat ts_steps ts_step dr_used dr_left dr_green dr_errs]. unfold ts_token.
    rewrite (eat_trivias_k _ _ _ _ _ _ _ Hst He). cbn [rbind].
    rewrite do_token_k by now apply starts_ok_app. cbn [rbind].
    now rewrite b_add_add, <- app_assoc, app_nil_r. }
  assert (Herr : forall e, Dr1 (PErr e)).
  { intros e c rt b es st a Hst H. injection H as <-.
    cbn [flat ts_steps ts_step dr_used dr_left dr_green dr_errs]. unfold ts_error. cbn [rbind].
    rewrite app_nil_r, b_add_nil. reflexivity. }
  assert (Hnil : DrF []).
  { intros c rt b es st a Hst H. injection H as <-. cbn.
    now rewrite !app_nil_r, b_add_nil. }
  assert (Hcons : forall t fs, Dr1 t -> DrF fs -> DrF (t :: fs)).
  { intros t fs H1 HF c rt b es st a Hst H. cbn [dress_f] in H.
    destruct (dress t (blen (texts c)) rt) as [x|] eqn:Ex; [|discriminate].
    destruct (dress_f fs _ (dr_left x)) as [y|] eqn:Ey; [|discriminate].
    injection H as <-. cbn [dr_used dr_left dr_green dr_errs]. cbn [flats flat_map].
    rewrite ts_steps_app, (H1 _ _ _ _ _ _ Hst Ex). cbn [rbind].
    rewrite <- blen_app, <- texts_app in Ey.
    rewrite (HF _ _ _ _ _ _ (starts_ok_app _ _ _ Hst) Ey).
    now rewrite b_add_add, <- !app_assoc. }
  assert (Herrn : forall fs e, DrF fs -> Dr1 (PErrN fs e)).
  { intros fs e HF c rt b es st a Hst H. rewrite dress_errn in H.
    destruct (eat rt) as [tr rest] eqn:He. cbv zeta in H.
    rewrite <- blen_app, <- texts_app in H.
    destruct (dress_f fs _ rest) as [x|] eqn:Ex; [|discriminate]. injection H as <-.
    cbn [dr_used dr_left dr_green dr_errs].
    change (flat (PErrN fs e)) with (SStartErr :: flats fs ++ [SFinishErr e]).
    cbn [ts_steps ts_step]. unfold ts_start_error_node.
    rewrite (ts_start_k _ _ _ _ _ _ _ _ Hst He). cbn [rbind].
    set (b1 := b_start KError (b_add b (map gtok tr))).
    match goal with |- context [ts_steps _ ?s] =>
      change s with (mkSink (texts ((c ++ tr) ++ rest)) (map mktok ((c ++ tr) ++ rest))
        (blen (texts (c ++ tr))) (length (c ++ tr)) b1 es
        (map (fun x => mkRange x (blen (texts (c ++ tr)))) st
         ++ map (fun x => mkRange x (blen (texts (c ++ tr)))) [blen (texts (c ++ tr))]))
    end.
    rewrite <- map_app.
    change (mkSink _ _ _ _ _ _ _) with
      (ksink (c ++ tr) rest b1 es (st ++ [blen (texts (c ++ tr))])).
    rewrite ts_steps_app.
    rewrite (HF (c ++ tr) rest b1 es (st ++ [blen (texts (c ++ tr))]) x); [| |exact Ex].
    2:{ apply Forall_app. split; [now apply starts_ok_app|]. constructor; [lia|constructor]. }
    cbn [rbind ts_steps ts_step]. unfold ts_finish_error_node, b1. rewrite ts_finish_k.
    cbn [rbind]. unfold ksink at 1. cbn [k_error_ranges]. rewrite map_app, rev_app_distr.
    cbn [map rev app rbind]. unfold ts_push_error, ksink.
    cbn [k_text k_tokens k_text_pos k_token_pos k_inner k_errors k_error_ranges].
    match goal with |- context [removelast (map ?f (st ++ ?l))] =>
      replace (removelast (map f (st ++ l))) with (map f st)
        by (rewrite (map_app f st l); cbn [map]; now rewrite removelast_last) end.
    rewrite b_add_add, <- !app_assoc.
    assert (E : blen (texts (c ++ tr ++ dr_used x))
                = blen (texts (c ++ tr)) + blen (texts (dr_used x)))
      by (rewrite app_assoc, (texts_app (c ++ tr)), blen_app; reflexivity).
    now rewrite E. }
  assert (Hnode : forall k fs, DrF fs -> Dr1 (PNode k fs)).
  { intros k fs HF c rt b es st a Hst H. rewrite dress_node in H.
    destruct (eat rt) as [tr rest] eqn:He.
    rewrite <- blen_app, <- texts_app in H.
    destruct (dress_f fs _ rest) as [x|] eqn:Ex; [|discriminate]. injection H as <-.
    cbn [dr_used dr_left dr_green dr_errs].
    change (flat (PNode k fs)) with (SStart k :: flats fs ++ [SFinish]).
    cbn [ts_steps ts_step]. rewrite (ts_start_k _ _ _ _ _ _ _ _ Hst He). cbn [rbind].
    rewrite ts_steps_app, (HF _ _ _ _ _ _ (starts_ok_app _ _ _ Hst) Ex).
    cbn [rbind ts_steps ts_step]. rewrite ts_finish_k. cbn [rbind].
    now rewrite b_add_add, <- !app_assoc. }
  split.
  - apply (ptree_ind' Dr1 DrF Htok Herr Herrn Hnode Hnil Hcons).
  - apply (forest_ind' Dr1 DrF Htok Herr Herrn Hnode Hnil Hcons).
Qed.

(** ** The deferring sink *)

Lemma finish_n_S n s : finish_n (S n) s = let? s' := finish_n n s in ts_finish_node s'.
Proof.
  revert s; induction n as [|n IH]; intros s.
  - cbn. destruct (ts_finish_node s); reflexivity.
  - change (finish_n (S (S n)) s) with (let? s' := ts_finish_node s in finish_n (S n) s').
    cbn [finish_n]. destruct (ts_finish_node s) as [s'| |]; cbn [rbind]; [|reflexivity|reflexivity].
    apply IH.
Qed.

(** The plain sink a deferring sink stands for: all pending finishes done. *)
Definition NF (d : dsink) (s : tsink) : Prop :=
  d_defer d = 2 /\ d_started d = 2 /\ d_finished d <= 2 /\ finish_n (d_finished d) (d_sink d) = Ok s.

Lemma finish_n_inner n s s' : finish_n n s = Ok s' -> s' = with_inner s (k_inner s').
Proof.
  revert s; induction n as [|n IH]; intros s H.
  - injection H as <-. destruct s; reflexivity.
  - cbn [finish_n] in H. apply rbind_ok in H as (s1 & H1 & H2). apply IH in H2.
    unfold ts_finish_node in H1. apply rbind_ok in H1 as (b & Hb & H1). injection H1 as <-.
    rewrite H2 at 1. reflexivity.
Qed.

Lemma finish_error_comm e x s : ts_finish_node (ts_push_error e x s)
  = let? s' := ts_finish_node s in Ok (ts_push_error e x s').
Proof.
  unfold ts_finish_node, ts_push_error. cbn [k_inner].
  destruct (b_finish_node (k_inner s)); reflexivity.
Qed.

Lemma finish_n_push n e x s s' : finish_n n s = Ok s' ->
  finish_n n (ts_push_error e x s) = Ok (ts_push_error e x s').
Proof.
  revert s; induction n as [|n IH]; intros s H.
  - injection H as <-. reflexivity.
  - cbn [finish_n] in *. rewrite finish_error_comm. apply rbind_ok in H as (s1 & -> & H).
    cbn [rbind]. now apply IH.
Qed.

Definition pop_range (s : tsink) : tsink :=
  mkSink (k_text s) (k_tokens s) (k_text_pos s) (k_token_pos s) (k_inner s)
         (k_errors s) (removelast (k_error_ranges s)).

Lemma finish_n_pop n s s' : finish_n n s = Ok s' -> finish_n n (pop_range s) = Ok (pop_range s').
Proof.
  revert s; induction n as [|n IH]; intros s H.
  - injection H as <-. reflexivity.
  - cbn [finish_n] in *. apply rbind_ok in H as (s1 & H1 & H).
    unfold ts_finish_node in *. apply rbind_ok in H1 as (b & Hb & H1). injection H1 as <-.
    cbn [k_inner pop_range] in *. rewrite Hb. cbn [rbind].
    change (with_inner (pop_range s) b) with (pop_range (with_inner s b)). now apply IH.
Qed.

Lemma d_step_norm st d s s' : NF d s -> ts_step st s = Ok s' ->
  exists d', d_step st d = Ok d' /\ NF d' s'.
Proof.
  intros (Hd & Hs & Hp & Hn) H.
  assert (Hc : consume_finish_defers d = Ok (mkD s 2 2 0)).
  { unfold consume_finish_defers. rewrite Hn. cbn [rbind]. now rewrite Hd, Hs. }
  destruct st as [k| | |e| |e]; cbn [ts_step d_step] in *.
  - unfold d_start_node. rewrite Hc. cbn [rbind d_started d_defer d_sink]. cbn [Nat.ltb Nat.leb].
    rewrite H. cbn [rbind]. eexists. split; [reflexivity|]. repeat split; cbn; lia.
  - unfold d_finish_node. rewrite Hd. destruct (Nat.ltb_spec (d_finished d) 2).
    + eexists. split; [reflexivity|]. unfold NF. cbn [d_defer d_started d_finished d_sink].
      repeat split; [exact Hs|lia|]. rewrite finish_n_S, Hn. exact H.
    + assert (Hf : d_finished d = 2) by lia. rewrite Hf in Hn.
      assert (H3 : finish_n 3 (d_sink d) = Ok s') by (rewrite finish_n_S, Hn; exact H).
      change (finish_n 3 (d_sink d)) with
        (let? x := ts_finish_node (d_sink d) in finish_n 2 x) in H3.
      apply rbind_ok in H3 as (x & Hx & H3). rewrite Hx. cbn [rbind].
      eexists. split; [reflexivity|]. unfold NF, d_with. cbn [d_defer d_started d_finished d_sink].
      rewrite Hf. repeat split; auto; lia.
  - unfold d_token. rewrite Hd, Hs. cbn [Nat.eqb rassert rbind]. rewrite Hc. cbn [rbind d_sink].
    rewrite H. cbn [rbind]. eexists. split; [reflexivity|]. repeat split; cbn; lia.
  - unfold d_error. rewrite Hd, Hs. cbn [Nat.eqb rassert rbind ts_error].
    unfold ts_error in H. injection H as <-.
    eexists. split; [reflexivity|]. unfold NF, d_with.
    cbn [d_defer d_started d_finished d_sink]. repeat split; auto.
    assert (Hp2 : k_text_pos s = k_text_pos (d_sink d))
      by (rewrite (finish_n_inner _ _ _ Hn); reflexivity).
    rewrite Hp2. apply finish_n_push. exact Hn.
  - unfold d_start_error_node. rewrite Hd, Hs. cbn [Nat.eqb rassert rbind]. rewrite Hc.
    cbn [rbind d_sink]. rewrite H. cbn [rbind]. eexists. split; [reflexivity|].
    repeat split; cbn; lia.
  - unfold d_finish_error_node. unfold ts_finish_error_node in *.
    apply rbind_ok in H as (s1 & H1 & H2).
    assert (H3 : finish_n (S (d_finished d)) (d_sink d) = Ok s1)
      by (rewrite finish_n_S, Hn; exact H1).
    cbn [finish_n] in H3. apply rbind_ok in H3 as (x & Hx & H3). rewrite Hx. cbn [rbind].
    assert (Hr : k_error_ranges x = k_error_ranges s1)
      by (rewrite (finish_n_inner _ _ _ H3); reflexivity).
    rewrite Hr. destruct (rev (k_error_ranges s1)) as [|r rs]; [discriminate|].
    injection H2 as <-. cbn [rbind]. eexists. split; [reflexivity|].
    unfold NF, d_with. cbn [d_defer d_started d_finished d_sink]. repeat split; auto.
    rewrite <- Hr.
    match goal with |- finish_n _ (ts_push_error _ _ ?u) = Ok (ts_push_error _ _ ?v) =>
      change u with (pop_range x); replace v with (pop_range s1)
        by (unfold pop_range; rewrite <- Hr; reflexivity) end.
    apply finish_n_push, finish_n_pop, H3.
Qed.

Lemma d_steps_norm l d s s' : NF d s -> ts_steps l s = Ok s' ->
  exists d', d_steps l d = Ok d' /\ NF d' s'.
Proof.
  revert d s; induction l as [|st l IH]; intros d s Hn H.
  - injection H as <-. eexists; split; [reflexivity|exact Hn].
  - cbn [ts_steps] in H. apply rbind_ok in H as (s1 & H1 & H).
    destruct (d_step_norm _ _ _ _ Hn H1) as (d1 & Hd1 & Hn1).
    destruct (IH _ _ Hn1 H) as (d2 & Hd2 & Hn2). exists d2. cbn [d_steps]. rewrite Hd1. auto.
Qed.

Lemma d_steps_app l1 l2 d : d_steps (l1 ++ l2) d = let? d1 := d_steps l1 d in d_steps l2 d1.
Proof.
  revert d; induction l1 as [|x l1 IH]; intros d; cbn; [reflexivity|].
  destruct (d_step x d) as [d'| |]; cbn; [apply IH|reflexivity|reflexivity].
Qed.

(** Two finishes at the end: exactly those two stay pending. *)
Lemma d_two_finishes d s : NF d s -> d_steps [SFinish; SFinish] d = Ok (mkD s 2 2 2).
Proof.
  intros (Hd & Hs & Hp & Hn). destruct d as [k def sta fin]. cbn in *. subst def sta.
  cbn [d_steps d_step]. unfold d_finish_node. cbn [d_finished d_defer d_started d_sink].
  destruct fin as [|[|[|fin]]]; [| | |lia].
  - injection Hn as ->. reflexivity.
  - cbn [finish_n] in Hn. apply rbind_ok in Hn as (x & Hx & Hn). injection Hn as ->.
    cbn [Nat.ltb Nat.leb rbind d_finished d_defer d_started d_sink]. rewrite Hx. reflexivity.
  - cbn [finish_n] in Hn. apply rbind_ok in Hn as (x & Hx & Hn).
    apply rbind_ok in Hn as (y & Hy & Hn). injection Hn as ->.
    cbn [Nat.ltb Nat.leb rbind d_finished d_defer d_started d_sink]. rewrite Hx.
    cbn [rbind d_with Nat.ltb Nat.leb d_finished d_defer d_started d_sink]. rewrite Hy. reflexivity.
Qed.

(** The whole parse: the root's two nodes contain everything, trailing trivia included. *)
Theorem run_dsink_root rt fs a tr rest k1 k2 :
  dress_f fs 0 rt = Some a -> eat (dr_left a) = (tr, rest) ->
  run_dsink (texts rt) (map mktok rt) (flat (PNode k1 [PNode k2 fs]))
  = Ok (GNode k1 [GNode k2 (dr_green a ++ map gtok tr)], dr_errs a).
Proof.
  intros Ha Htr. unfold run_dsink.
  change (flat (PNode k1 [PNode k2 fs]))
    with ([SStart k1; SStart k2] ++ ((flats fs ++ [SFinish]) ++ []) ++ [SFinish]).
  rewrite app_nil_r, <- app_assoc. change ([SFinish] ++ [SFinish]) with [SFinish; SFinish].
  rewrite d_steps_app.
  assert (H0 : d_steps [SStart k1; SStart k2] (dsink_new (texts rt) (map mktok rt) DEFER_AMOUNT)
    = Ok (mkD (ksink [] rt (mkB [(k1, 0); (k2, 0)] []) [] []) 2 2 0)) by reflexivity.
  rewrite H0. cbn [rbind]. rewrite d_steps_app.
  destruct ts_steps_dress as [_ HF].
  specialize (HF fs [] rt (mkB [(k1, 0); (k2, 0)] []) [] [] a (Forall_nil _) Ha).
  cbn [app] in HF.
  destruct (d_steps_norm _ (mkD (ksink [] rt (mkB [(k1, 0); (k2, 0)] []) [] []) 2 2 0)
              _ _ (conj eq_refl (conj eq_refl (conj (Nat.le_0_l 2) eq_refl))) HF) as (d1 & -> & Hn).
  cbn [rbind]. rewrite (d_two_finishes _ _ Hn). cbn [rbind]. unfold d_finish.
  cbn [d_sink]. rewrite (eat_trivias_k _ _ _ _ _ _ _ (Forall_nil _) Htr). cbn [rbind].
  unfold consume_finish_defers, d_with. cbn [d_finished d_sink finish_n].
  rewrite b_add_add.
  change (b_add (mkB [(k1, 0); (k2, 0)] []) (dr_green a ++ map gtok tr))
    with (b_add (b_start k2 (b_add (b_start k1 builder_new) [])) (dr_green a ++ map gtok tr)).
  rewrite ts_finish_k. cbn [rbind]. rewrite b_add_add. cbn [app]. rewrite ts_finish_k. cbn [rbind].
  unfold ts_finish. cbn [d_sink ksink k_inner k_errors b_finish b_add b_children builder_new app].
  reflexivity.
Qed.

(** Reparsing uses the plain sink on a single node. *)
Theorem run_tsink_node rt t a :
  (match t with PNode _ _ => True | _ => False end) ->
  dress t 0 rt = Some a ->
  run_tsink (texts rt) (map mktok rt) (flat t)
  = match dr_green a with [GNode k cs] => Ok (GNode k cs, dr_errs a) | _ => Panic end.
Proof.
  intros Ht Ha. unfold run_tsink. destruct ts_steps_dress as [H1 _].
  specialize (H1 t [] rt builder_new [] [] a (Forall_nil _) Ha). cbn [app] in H1.
  change (tsink_new (texts rt) (map mktok rt)) with (ksink [] rt builder_new [] []).
  rewrite H1. cbn [rbind]. unfold ts_finish, b_finish.
  cbn [ksink k_inner k_errors b_add b_children builder_new app].
  destruct (dr_green a) as [|[k cs|k x] [|g2 gs]]; reflexivity.
Qed.

(** ** What dressing preserves *)

(** The token kinds of a tree. *)
Fixpoint pkinds (t : ptree) : list kind :=
  match t with
  | PTok k => [k]
  | PErr _ => []
  | PErrN fs _ => flat_map pkinds fs
  | PNode _ fs => flat_map pkinds fs
  end.
Definition fkinds (f : list ptree) : list kind := flat_map pkinds f.

(** The error messages of a tree, in order. *)
Fixpoint pmsgs (t : ptree) : list string :=
  match t with
  | PTok _ => []
  | PErr e => [perr_display e]
  | PErrN fs e => flat_map pmsgs fs ++ [perr_display e]
  | PNode _ fs => flat_map pmsgs fs
  end.
Definition fmsgs (f : list ptree) : list string := flat_map pmsgs f.

Lemma nontriv_app a b : nontriv (a ++ b) = nontriv a ++ nontriv b.
Proof. apply filter_app. Qed.

Lemma eat_nontriv l tr rest : eat l = (tr, rest) -> nontriv l = nontriv rest /\ nontriv tr = [].
Proof.
  intros H. pose proof (eat_app _ _ _ H) as ->. apply eat_triv in H as [H _].
  assert (Ht : nontriv tr = []).
  { induction tr as [|p tr IH]; [reflexivity|]. cbn in *. apply andb_true_iff in H as [-> H].
    cbn. auto. }
  rewrite nontriv_app, Ht. auto.
Qed.

Definition leaves (gs : list green) : list rtok := flat_map green_leaves gs.

Lemma leaves_app a b : leaves (a ++ b) = leaves a ++ leaves b.
Proof. apply flat_map_app. Qed.
Lemma leaves_gtok l : leaves (map gtok l) = l.
Proof.
  induction l as [|[k x] l IH]; [reflexivity|].
  change (leaves (map gtok ((k, x) :: l))) with ((k, x) :: leaves (map gtok l)). now rewrite IH.
Qed.

(** Basic facts about a successful dressing. *)
Definition DrOk (f : list string) (pos : nat) (rt : list rtok) (K : list kind) (a : dressed) : Prop :=
  rt = dr_used a ++ dr_left a /\ leaves (dr_green a) = dr_used a /\
  map fst (nontriv (dr_left a)) = K /\
  map e_msg (dr_errs a) = f.

Lemma dress_total :
  (forall t pos rt K, map fst (nontriv rt) = pkinds t ++ K ->
     exists a, dress t pos rt = Some a /\ DrOk (pmsgs t) pos rt K a) /\
  (forall f pos rt K, map fst (nontriv rt) = fkinds f ++ K ->
     exists a, dress_f f pos rt = Some a /\ DrOk (fmsgs f) pos rt K a).
Proof.
  set (P1 := fun t => forall pos rt K, map fst (nontriv rt) = pkinds t ++ K ->
     exists a, dress t pos rt = Some a /\ DrOk (pmsgs t) pos rt K a).
  set (PF := fun f => forall pos rt K, map fst (nontriv rt) = fkinds f ++ K ->
     exists a, dress_f f pos rt = Some a /\ DrOk (fmsgs f) pos rt K a).
  assert (Htok : forall k, P1 (PTok k)).
  { intros k pos rt K H. cbn [dress]. destruct (eat rt) as [tr rest] eqn:He.
    destruct (eat_nontriv _ _ _ He) as [Hn Ht]. pose proof (eat_app _ _ _ He) as Happ.
    destruct (eat_triv _ _ _ He) as [_ Hr]. rewrite Hn in H.
    destruct rest as [|p rest]; [discriminate|].
    eexists. split; [reflexivity|]. unfold DrOk. cbn [dr_used dr_left dr_green dr_errs].
    rewrite <- app_assoc. split; [exact Happ|]. split.
    - rewrite leaves_app, leaves_gtok. destruct p; reflexivity.
    - cbn [nontriv filter] in H. rewrite Hr in H. cbn in H. injection H as _ H.
      split; [exact H|reflexivity]. }
  assert (Herr : forall e, P1 (PErr e)).
  { intros e pos rt K H. eexists. split; [reflexivity|]. repeat split. exact H. }
  assert (Hnil : PF []).
  { intros pos rt K H. eexists. split; [reflexivity|]. repeat split. exact H. }
  assert (Hcons : forall t fs, P1 t -> PF fs -> PF (t :: fs)).
  { intros t fs H1 HF pos rt K H. cbn [dress_f fkinds flat_map] in *. rewrite <- app_assoc in H.
    destruct (H1 pos rt _ H) as (x & -> & Hx1 & Hx2 & Hx3 & Hx4).
    destruct (HF (pos + blen (texts (dr_used x))) (dr_left x) K Hx3) as (y & -> & Hy1 & Hy2 & Hy3 & Hy4).
    eexists. split; [reflexivity|]. unfold DrOk. cbn [dr_used dr_left dr_green dr_errs].
    rewrite <- app_assoc, <- Hy1, leaves_app, Hx2, Hy2, map_app, Hx4, Hy4.
    repeat split; auto. }
  assert (Herrn : forall fs e, PF fs -> P1 (PErrN fs e)).
  { intros fs e HF pos rt K H. rewrite dress_errn. destruct (eat rt) as [tr rest] eqn:He.
    destruct (eat_nontriv _ _ _ He) as [Hn Ht]. pose proof (eat_app _ _ _ He) as Happ.
    rewrite Hn in H. cbv zeta.
    destruct (HF (pos + blen (texts tr)) rest K H) as (x & -> & Hx1 & Hx2 & Hx3 & Hx4).
    eexists. split; [reflexivity|]. unfold DrOk. cbn [dr_used dr_left dr_green dr_errs].
    rewrite <- app_assoc, <- Hx1, leaves_app, leaves_gtok, map_app, Hx4. cbn [leaves flat_map green_leaves].
    rewrite app_nil_r. change (flat_map green_leaves (dr_green x)) with (leaves (dr_green x)).
    rewrite Hx2. repeat split; auto. }
  assert (Hnode : forall k fs, PF fs -> P1 (PNode k fs)).
  { intros k fs HF pos rt K H. rewrite dress_node. destruct (eat rt) as [tr rest] eqn:He.
    destruct (eat_nontriv _ _ _ He) as [Hn Ht]. pose proof (eat_app _ _ _ He) as Happ.
    rewrite Hn in H.
    destruct (HF (pos + blen (texts tr)) rest K H) as (x & -> & Hx1 & Hx2 & Hx3 & Hx4).
    eexists. split; [reflexivity|]. unfold DrOk. cbn [dr_used dr_left dr_green dr_errs].
    rewrite <- app_assoc, <- Hx1, leaves_app, leaves_gtok, Hx4. cbn [leaves flat_map green_leaves].
    rewrite app_nil_r. change (flat_map green_leaves (dr_green x)) with (leaves (dr_green x)).
    rewrite Hx2. repeat split; auto. }
  split.
  - apply (ptree_ind' P1 PF Htok Herr Herrn Hnode Hnil Hcons).
  - apply (forest_ind' P1 PF Htok Herr Herrn Hnode Hnil Hcons).
Qed.
