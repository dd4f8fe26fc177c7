(** LuaRun.v — running the tree-building parser on known tokens: rules for the completeness proof
    (LuaComplete.v). *)
From Verif Require Import Base SyntaxKind TokenSet Lexer BindingPowers Parser Grammar ParserTree ParserTotal LuaSyntax.

(** [m] consumes [r] down to [r'], returns [a] and appends exactly [fs]. *)
Definition Does {A} (m : D A) (r r' : list kind) (a : A) (fs : forest) : Prop :=
  forall F, m (mkDS r F) = Ok (a, mkDS r' (F ++ fs)).
(** The same for computations returning the mark of the node they append. *)
Definition DoesM (m : D nat) (r r' : list kind) (t : ptree) : Prop :=
  forall F, m (mkDS r F) = Ok (length F, mkDS r' (F ++ [t])).
Definition DoesO (m : D (option nat)) (r r' : list kind) (t : ptree) : Prop :=
  forall F, m (mkDS r F) = Ok (Some (length F), mkDS r' (F ++ [t])).

Lemma Does_eq {A} (m : D A) r r' a f f' : Does m r r' a f -> f = f' -> Does m r r' a f'.
Proof. now intros H <-. Qed.
Lemma D_ret {A} (a : A) r : Does (@ret TO A a) r r a [].
Proof. intros F. cbn. now rewrite app_nil_r. Qed.
Lemma D_bind {A B} (m : D A) (k : A -> D B) r r1 r2 a b f1 f2 :
  Does m r r1 a f1 -> Does (k a) r1 r2 b f2 -> Does (@bind TO A B m k) r r2 b (f1 ++ f2).
Proof. intros H1 H2 F. rewrite (bind_run _ _ _ _ _ (H1 F)), H2, app_assoc. reflexivity. Qed.
Lemma D_bindM {B} (m : D nat) (k : D B) r r1 r2 t b f2 :
  DoesM m r r1 t -> Does k r1 r2 b f2 -> Does (@bind TO nat B m (fun _ => k)) r r2 b (t :: f2).
Proof. intros H1 H2 F. rewrite (bind_run _ _ _ _ _ (H1 F)), H2, <- app_assoc. reflexivity. Qed.
Lemma D_bindO {B} (m : D (option nat)) (k : D B) r r1 r2 t b f2 :
  DoesO m r r1 t -> Does k r1 r2 b f2 -> Does (@bind TO (option nat) B m (fun _ => k)) r r2 b (t :: f2).
Proof. intros H1 H2 F. rewrite (bind_run _ _ _ _ _ (H1 F)), H2, <- app_assoc. reflexivity. Qed.
Lemma D_nth {B} n (k : kind -> D B) r r' b f :
  Does (k (nth n r KEof)) r r' b f -> Does (@bind TO kind B (@p_nth TO n) k) r r' b f.
Proof. intros H F. exact (H F). Qed.
Lemma D_cur {B} (k : kind -> D B) r r' b f :
  Does (k (hd0 r)) r r' b f -> Does (@bind TO kind B (@p_current TO) k) r r' b f.
Proof. intros H F. exact (H F). Qed.
Lemma D_at {B} a (k : bool -> D B) r r' b f :
  Does (k (pacc_test a (hd0 r))) r r' b f -> Does (@bind TO bool B (@p_at TO a) k) r r' b f.
Proof. intros H F. exact (H F). Qed.
Lemma D_at1 a r b : pacc_test a (hd0 r) = b -> Does (@p_at TO a) r r b [].
Proof. intros <- F. cbn. now rewrite app_nil_r. Qed.
Lemma D_adv k r : k <> KEof -> Does (@p_adv TO) (k :: r) r tt [PTok k].
Proof. intros H F. now apply adv_run. Qed.
Lemma D_accept a k r : pacc_test a k = true -> k <> KEof -> Does (@p_accept TO a) (k :: r) r true [PTok k].
Proof.
  intros Ha Hk. unfold p_accept. apply D_at. cbn [nth]. rewrite Ha.
  eapply Does_eq; [eapply D_bind; [apply D_adv, Hk|apply D_ret]|reflexivity].
Qed.
Lemma D_accept_no a r : pacc_test a (hd0 r) = false -> Does (@p_accept TO a) r r false [].
Proof. intros Ha. unfold p_accept. apply D_at. rewrite Ha. apply D_ret. Qed.
Lemma D_bump a k r : pacc_test a k = true -> k <> KEof -> Does (@p_bump TO a) (k :: r) r tt [PTok k].
Proof.
  intros Ha Hk. unfold p_bump. eapply Does_eq; [eapply D_bind; [apply D_accept; eassumption|]|].
  - cbn [passert]. apply D_ret.
  - reflexivity.
Qed.
Lemma D_bumpk k r : k <> KEof -> Does (@p_bump TO (PKind k)) (k :: r) r tt [PTok k].
Proof. intros H. apply D_bump; [|exact H]. cbn. apply kind_eqb_eq. reflexivity. Qed.
Lemma D_bumpany k r : k <> KEof -> Does (@p_bump TO PAny) (k :: r) r tt [PTok k].
Proof. intros H. apply D_bump; [|exact H]. cbn. now rewrite kind_eqb_false. Qed.
Lemma D_expect k r : k <> KEof -> Does (@p_expect TO k) (k :: r) r true [PTok k].
Proof.
  intros H. unfold p_expect. apply D_cur. cbn [nth]. replace (kind_eqb k k) with true by (symmetry; now apply kind_eqb_eq).
  eapply Does_eq; [eapply D_bind; [apply D_bumpany, H|apply D_ret]|reflexivity].
Qed.
Lemma D_node_by (body : D kind) r r' k f : Does body r r' k f -> DoesM (@node_by TO body) r r' (PNode k f).
Proof.
  intros H F. cbn [node_by TO tree_ops]. unfold tr_node. cbn [ds_rem ds_for]. rewrite (H []). reflexivity.
Qed.
Lemma D_node {A} k (body : D A) r r' a f : Does body r r' a f -> DoesM (@node TO A k body) r r' (PNode k f).
Proof.
  intros H. unfold node. apply D_node_by. eapply Does_eq; [eapply D_bind; [exact H|apply D_ret]|apply app_nil_r].
Qed.
Lemma D_node_ {A} k (body : D A) r r' a f : Does body r r' a f -> Does (@node_ TO A k body) r r' tt [PNode k f].
Proof. intros H. unfold node_. eapply D_bindM; [eapply D_node, H|apply D_ret]. Qed.
Lemma D_nodeM k (body : D nat) r r' t : DoesM body r r' t -> DoesM (@node TO nat k body) r r' (PNode k [t]).
Proof. intros H. unfold node. apply D_node_by. eapply D_bindM; [exact H|apply D_ret]. Qed.
Lemma D_nodeO k (body : D (option nat)) r r' t : DoesO body r r' t -> DoesM (@node TO (option nat) k body) r r' (PNode k [t]).
Proof. intros H. unfold node. apply D_node_by. eapply D_bindO; [exact H|apply D_ret]. Qed.
Lemma D_nodeO_ k (body : D (option nat)) r r' t : DoesO body r r' t -> Does (@node_ TO (option nat) k body) r r' tt [PNode k [t]].
Proof. intros H. unfold node_. eapply D_bindM; [eapply D_nodeO, H|apply D_ret]. Qed.

(** The same when the value returned does not matter. *)
Definition DoesX {A} (m : D A) (r r' : list kind) (fs : forest) : Prop :=
  forall F, exists a, m (mkDS r F) = Ok (a, mkDS r' (F ++ fs)).
Lemma X_D {A} (m : D A) r r' a f : Does m r r' a f -> DoesX m r r' f.
Proof. intros H F. exists a. apply H. Qed.
Lemma X_M (m : D nat) r r' t : DoesM m r r' t -> DoesX m r r' [t].
Proof. intros H F. exists (length F). apply H. Qed.
Lemma X_O (m : D (option nat)) r r' t : DoesO m r r' t -> DoesX m r r' [t].
Proof. intros H F. exists (Some (length F)). apply H. Qed.
Lemma X_bind {A B} (m : D A) (k : A -> D B) r r1 r2 a f1 f2 :
  Does m r r1 a f1 -> DoesX (k a) r1 r2 f2 -> DoesX (@bind TO A B m k) r r2 (f1 ++ f2).
Proof. intros H1 H2 F. destruct (H2 (F ++ f1)) as [b Hb]. exists b. rewrite (bind_run _ _ _ _ _ (H1 F)), Hb, app_assoc. reflexivity. Qed.
Lemma X_drop {A B} (m : D A) (k : D B) r r1 r2 b f1 f2 :
  DoesX m r r1 f1 -> Does k r1 r2 b f2 -> Does (@bind TO A B m (fun _ => k)) r r2 b (f1 ++ f2).
Proof. intros H1 H2 F. destruct (H1 F) as [a Ha]. rewrite (bind_run _ _ _ _ _ Ha), H2, app_assoc. reflexivity. Qed.
Lemma X_node {A} k (body : D A) r r' f : DoesX body r r' f -> DoesM (@node TO A k body) r r' (PNode k f).
Proof.
  intros H. unfold node. apply D_node_by. eapply Does_eq; [eapply X_drop; [exact H|apply D_ret]|apply app_nil_r].
Qed.
Lemma X_node_ {A} k (body : D A) r r' f : DoesX body r r' f -> Does (@node_ TO A k body) r r' tt [PNode k f].
Proof. intros H. unfold node_. eapply D_bindM; [eapply X_node, H|apply D_ret]. Qed.

(** Loops. *)
Lemma D_loop_stop n (body : D bool) r : Does body r r false [] -> Does (@p_loop TO (S n) body) r r tt [].
Proof. intros H. cbn [p_loop]. change (@nil ptree) with (@nil ptree ++ []). eapply D_bind; [exact H|apply D_ret]. Qed.
Lemma D_loop_last n (body : D bool) r r' f : Does body r r' false f -> Does (@p_loop TO (S n) body) r r' tt f.
Proof. intros H. cbn [p_loop]. rewrite <- (app_nil_r f). eapply D_bind; [exact H|apply D_ret]. Qed.
Lemma D_loop_step n (body : D bool) r r1 r' f1 f2 :
  Does body r r1 true f1 -> Does (@p_loop TO n body) r1 r' tt f2 -> Does (@p_loop TO (S n) body) r r' tt (f1 ++ f2).
Proof. intros H1 H2. cbn [p_loop]. eapply D_bind; [exact H1|exact H2]. Qed.

(** A leaf of a sequence: the tactic [seq] solves sequences of known tokens. *)
Ltac dleaf :=
  lazymatch goal with
  | |- Does (@ret _ _ _) _ _ _ _ => apply D_ret
  | |- Does (@p_bump _ (PKind _)) _ _ _ _ => apply D_bumpk; discriminate
  | |- Does (@p_bump _ PAny) _ _ _ _ => apply D_bumpany; try discriminate
  | |- Does (@p_expect _ _) _ _ _ _ => apply D_expect; discriminate
  end.
(** Decide a closed test. *)
Ltac dif :=
  lazymatch goal with
  | |- Does (if ?b then _ else _) _ _ _ _ => let v := eval vm_compute in b in change b with v; cbn iota
  end.
Ltac dat := apply D_at; cbn [pacc_test nth]; dif.
Ltac deq := eapply Does_eq; [|try reflexivity].

(** ** Names *)
Lemma D_name_unchecked r : Does (@name_unchecked TO) (KIdent :: r) r tt [name_t].
Proof. unfold name_unchecked. eapply D_node_. dleaf. Qed.
Lemma D_name_r s r : Does (@name_r TO s) (KIdent :: r) r tt [name_t].
Proof. unfold name_r. dat. apply D_name_unchecked. Qed.
Lemma D_name r : Does (@name TO) (KIdent :: r) r tt [name_t].
Proof. unfold name. dat. eapply D_node_. dleaf. Qed.
Lemma D_name_ref_r s r : Does (@name_ref_r TO s) (KIdent :: r) r tt [name_ref_t].
Proof. unfold name_ref_r. dat. unfold name_ref_unchecked. eapply D_node_. dleaf. Qed.
Lemma D_name_ref r : DoesM (@name_ref TO) (KIdent :: r) r name_ref_t.
Proof. unfold name_ref. eapply D_node. dleaf. Qed.

Lemma names_w_hd n r : hd0 (names_w n ++ r) = KIdent.
Proof. destruct n; reflexivity. Qed.
Lemma names_w_len n : length (names_w n) = 2 * n + 1.
Proof. induction n as [|n IH]; [reflexivity|]. cbn [names_w length]. lia. Qed.
Lemma names_w_nth1 n r : nth 1 (names_w n ++ r) KEof = match n with 0 => hd0 r | S _ => KComma end.
Proof. destruct n; reflexivity. Qed.

Lemma kind_eqb_refl k : kind_eqb k k = true.
Proof. now apply kind_eqb_eq. Qed.

(** The loop of [multi_name_r] after the first name; [va] asks for a trailing [, ...]. *)
Definition names_loop (s : token_set) (vararg : bool) : D bool :=
  @bind TO _ _ (@p_at TO (PKind KComma)) (fun c : bool =>
  if c then
    @bind TO _ _ (@p_bump TO (PKind KComma)) (fun _ =>
    @bind TO _ _ (@p_at TO (PKind KTripleDot)) (fun b : bool =>
    if vararg && b then @ret TO _ false else @bind TO _ _ (@name_r TO s) (fun _ => @ret TO _ true)))
  else @ret TO _ false).

Lemma D_names_loop s vararg n : forall m r, hd0 r <> KComma -> 2 * n + 1 <= m ->
  Does (@p_loop TO m (names_loop s vararg)) (tl (names_w n) ++ r) r tt (tl (names_t n)).
Proof.
  induction n as [|n IH]; intros m r Hr Hm; cbn [names_w names_t tl app].
  - destruct m as [|m]; [lia|]. apply D_loop_stop. unfold names_loop. apply D_at. cbn [pacc_test].
    rewrite (kind_eqb_false _ _ Hr). apply D_ret.
  - destruct m as [|m]; [lia|].
    replace (PTok KComma :: names_t n) with ([PTok KComma; name_t] ++ tl (names_t n)) by (destruct n; reflexivity).
    eapply D_loop_step; [|apply IH; [exact Hr|lia]].
    unfold names_loop. apply D_at. cbn [pacc_test nth kind_eqb]. change (kind_eqb KComma KComma) with true. cbn iota.
    replace (names_w n ++ r) with (KIdent :: tl (names_w n) ++ r) by (destruct n; reflexivity).
    change [PTok KComma; name_t] with ([PTok KComma] ++ [name_t]).
    eapply D_bind; [dleaf|]. apply D_at. cbn [pacc_test nth]. change (kind_eqb KIdent KTripleDot) with false. rewrite andb_false_r. cbn iota.
    change [name_t] with ([name_t] ++ []). eapply D_bind; [apply D_name_r|apply D_ret].
Qed.

Lemma D_names_loop_va s n : forall m r, 2 * n + 2 <= m ->
  Does (@p_loop TO m (names_loop s true)) (tl (names_w n) ++ KComma :: KTripleDot :: r) (KTripleDot :: r) tt (tl (names_t n) ++ [PTok KComma]).
Proof.
  induction n as [|n IH]; intros m r Hm; cbn [names_w names_t tl app].
  - destruct m as [|m]; [lia|]. apply D_loop_last. unfold names_loop. apply D_at. cbn [pacc_test nth].
    change (kind_eqb KComma KComma) with true. cbn iota. change [PTok KComma] with ([PTok KComma] ++ []).
    eapply D_bind; [dleaf|]. dat. apply D_ret.
  - destruct m as [|m]; [lia|].
    replace (PTok KComma :: names_t n ++ [PTok KComma]) with ([PTok KComma; name_t] ++ (tl (names_t n) ++ [PTok KComma])) by (destruct n; reflexivity).
    eapply D_loop_step; [|apply IH; lia].
    unfold names_loop. apply D_at. cbn [pacc_test nth kind_eqb]. change (kind_eqb KComma KComma) with true. cbn iota.
    replace (names_w n ++ KComma :: KTripleDot :: r) with (KIdent :: tl (names_w n) ++ KComma :: KTripleDot :: r) by (destruct n; reflexivity).
    change [PTok KComma; name_t] with ([PTok KComma] ++ [name_t]).
    eapply D_bind; [dleaf|]. apply D_at. cbn [pacc_test nth]. change (kind_eqb KIdent KTripleDot) with false. cbn [andb].
    change [name_t] with ([name_t] ++ []). eapply D_bind; [apply D_name_r|apply D_ret].
Qed.

Lemma D_multi_name fuel s vararg n r : hd0 r <> KComma -> 2 * n + 1 <= fuel ->
  Does (@multi_name_r TO fuel s vararg) (names_w n ++ r) r tt [PNode KMultiName (names_t n)].
Proof.
  intros Hr Hf. unfold multi_name_r. eapply D_node_. apply D_at. rewrite names_w_hd. cbn [pacc_test].
  change (kind_eqb KIdent KTripleDot) with false. rewrite andb_false_r. cbn iota.
  replace (names_w n ++ r) with (KIdent :: tl (names_w n) ++ r) by (destruct n; reflexivity).
  replace (names_t n) with ([name_t] ++ tl (names_t n)) by (destruct n; reflexivity).
  eapply D_bind; [apply D_name_r|]. exact (D_names_loop _ vararg n fuel r Hr Hf).
Qed.
Lemma D_multi_name_va fuel s n r : 2 * n + 2 <= fuel ->
  Does (@multi_name_r TO fuel s true) (names_w n ++ KComma :: KTripleDot :: r) (KTripleDot :: r) tt [PNode KMultiName (names_t n ++ [PTok KComma])].
Proof.
  intros Hf. unfold multi_name_r. eapply D_node_. apply D_at. rewrite names_w_hd. cbn [pacc_test].
  change (kind_eqb KIdent KTripleDot) with false. rewrite andb_false_r. cbn iota.
  replace (names_w n ++ KComma :: KTripleDot :: r) with (KIdent :: tl (names_w n) ++ KComma :: KTripleDot :: r) by (destruct n; reflexivity).
  replace (names_t n ++ [PTok KComma]) with ([name_t] ++ tl (names_t n) ++ [PTok KComma]) by (destruct n; reflexivity).
  eapply D_bind; [apply D_name_r|]. exact (D_names_loop_va _ n fuel r Hf).
Qed.
Lemma D_multi_name_dots fuel s r : Does (@multi_name_r TO fuel s true) (KTripleDot :: r) (KTripleDot :: r) tt [PNode KMultiName []].
Proof. unfold multi_name_r. eapply D_node_. dat. apply D_ret. Qed.

Lemma params_w_len n va : 2 * n + 2 <= length (params_w n va) + 1.
Proof. unfold params_w. destruct n, va; cbn [app length]; try lia; rewrite !app_length, names_w_len; cbn [length]; lia. Qed.

Lemma D_param_list fuel n va r : length (params_w n va) <= fuel ->
  Does (@param_list TO fuel) (params_w n va ++ r) r tt [params_t n va].
Proof.
  intros Hf. pose proof (params_w_len n va) as Hl. unfold param_list, params_t. eapply (D_node_ _ _ _ _ true). unfold params_w. cbn [app].
  match goal with |- Does _ _ _ _ (PTok KLParen :: ?l) => change (PTok KLParen :: l) with ([PTok KLParen] ++ l) end.
  eapply D_bind; [dleaf|].
  assert (Hend : forall l, Does (@bind TO _ _ (@p_at TO (PKind KTripleDot)) (fun b : bool =>
        if b then
          @bind TO _ _ (@p_bump TO (PKind KTripleDot)) (fun _ =>
          @bind TO _ _ (@p_at TO (PKind KRParen)) (fun c : bool => if c then @ret TO _ tt else @p_err_and_bump TO "Nothing can be after a vararg"))
        else @ret TO _ tt)) (KRParen :: l) (KRParen :: l) tt []).
  { intros l. dat. apply D_ret. }
  assert (Hdots : forall l, Does (@bind TO _ _ (@p_at TO (PKind KTripleDot)) (fun b : bool =>
        if b then
          @bind TO _ _ (@p_bump TO (PKind KTripleDot)) (fun _ =>
          @bind TO _ _ (@p_at TO (PKind KRParen)) (fun c : bool => if c then @ret TO _ tt else @p_err_and_bump TO "Nothing can be after a vararg"))
        else @ret TO _ tt)) (KTripleDot :: KRParen :: l) (KRParen :: l) tt [PTok KTripleDot]).
  { intros l. apply D_at. cbn [pacc_test nth]. change (kind_eqb KTripleDot KTripleDot) with true. cbn iota.
    change [PTok KTripleDot] with ([PTok KTripleDot] ++ []). eapply D_bind; [dleaf|]. dat. apply D_ret. }
  destruct n as [|n], va; rewrite <- ?app_assoc; cbn [app].
  - change [PNode KMultiName []; PTok KTripleDot; PTok KRParen] with ([PNode KMultiName []] ++ [PTok KTripleDot] ++ [PTok KRParen]).
    eapply D_bind; [apply D_at|eapply D_bind; [apply Hdots|dleaf]]. cbn [pacc_test nth]. change (ts_contains PARAM_END KTripleDot) with false. cbn iota.
    apply D_multi_name_dots.
  - change [PTok KRParen] with ([] ++ [] ++ [PTok KRParen]).
    eapply D_bind; [dat; apply D_ret|eapply D_bind; [apply Hend|dleaf]].
  - change [PNode KMultiName (names_t n ++ [PTok KComma]); PTok KTripleDot; PTok KRParen] with ([PNode KMultiName (names_t n ++ [PTok KComma])] ++ [PTok KTripleDot] ++ [PTok KRParen]).
    eapply D_bind; [apply D_at|eapply D_bind; [apply Hdots|dleaf]]. rewrite names_w_hd. cbn [pacc_test]. change (ts_contains PARAM_END KIdent) with false. cbn iota.
    apply D_multi_name_va. lia.
  - change [PNode KMultiName (names_t n); PTok KRParen] with ([PNode KMultiName (names_t n)] ++ [] ++ [PTok KRParen]).
    eapply D_bind; [apply D_at|eapply D_bind; [apply Hend|dleaf]]. rewrite names_w_hd. cbn [pacc_test]. change (ts_contains PARAM_END KIdent) with false. cbn iota.
    apply D_multi_name; [discriminate|lia].
Qed.

(** Function names. *)
Definition path_body (s : token_set) : D bool :=
  @bind TO _ _ (@p_at TO (PKind KColon)) (fun b : bool =>
  if b then @ret TO _ false
  else
    @bind TO _ _ (@p_at TO (PKind KDot)) (fun d : bool =>
    if d then
      @bind TO _ _ (@p_bump TO (PKind KDot)) (fun _ =>
      @bind TO _ _ (@p_nth TO 1) (fun n =>
      if kind_eqb n KLParen then @ret TO _ false
      else @bind TO _ _ (@name_ref_r TO s) (fun _ => @ret TO _ true)))
    else @ret TO _ false)).

Lemma path_w_cons n : path_w n = KIdent :: tl (path_w n).
Proof. destruct n; reflexivity. Qed.
Lemma path_t_cons n : path_t n = name_ref_t :: tl (path_t n).
Proof. destruct n; reflexivity. Qed.
Lemma path_w_len n : length (path_w n) = 2 * n + 1.
Proof. induction n as [|n IH]; [reflexivity|]. cbn [path_w length]. lia. Qed.

Lemma D_path_static s n : forall m r, n + 2 <= m ->
  Does (@p_loop TO m (path_body s)) (tl (path_w n) ++ KDot :: KIdent :: KLParen :: r) (KIdent :: KLParen :: r) tt (tl (path_t n) ++ [PTok KDot]).
Proof.
  induction n as [|n IH]; intros m r Hm; (destruct m as [|m]; [lia|]); cbn [path_w path_t tl app].
  - apply D_loop_last. unfold path_body. apply D_at. cbn [pacc_test nth]. change (kind_eqb KDot KColon) with false. cbn iota.
    apply D_at. cbn [pacc_test nth]. change (kind_eqb KDot KDot) with true. cbn iota.
    change [PTok KDot] with ([PTok KDot] ++ []). eapply D_bind; [dleaf|]. apply D_nth. cbn [nth]. dif. apply D_ret.
  - rewrite (path_w_cons n), (path_t_cons n). cbn [app].
    change (PTok KDot :: name_ref_t :: tl (path_t n) ++ [PTok KDot]) with ([PTok KDot; name_ref_t] ++ (tl (path_t n) ++ [PTok KDot])).
    eapply D_loop_step; [|apply IH; lia].
    unfold path_body. apply D_at. cbn [pacc_test nth]. change (kind_eqb KDot KColon) with false. cbn iota.
    apply D_at. cbn [pacc_test nth]. change (kind_eqb KDot KDot) with true. cbn iota.
    change [PTok KDot; name_ref_t] with ([PTok KDot] ++ [name_ref_t] ++ []). eapply D_bind; [dleaf|]. apply D_nth.
    replace (kind_eqb _ KLParen) with false by (destruct n; reflexivity).
    eapply D_bind; [apply D_name_ref_r|apply D_ret].
Qed.
Lemma D_path_method s n : forall m r, n + 2 <= m ->
  Does (@p_loop TO m (path_body s)) (tl (path_w n) ++ KColon :: r) (KColon :: r) tt (tl (path_t n)).
Proof.
  induction n as [|n IH]; intros m r Hm; (destruct m as [|m]; [lia|]); cbn [path_w path_t tl app].
  - apply D_loop_last. unfold path_body. dat. apply D_ret.
  - rewrite (path_w_cons n), (path_t_cons n). cbn [app].
    change (PTok KDot :: name_ref_t :: tl (path_t n)) with ([PTok KDot; name_ref_t] ++ tl (path_t n)).
    eapply D_loop_step; [|apply IH; lia].
    unfold path_body. apply D_at. cbn [pacc_test nth]. change (kind_eqb KDot KColon) with false. cbn iota.
    apply D_at. cbn [pacc_test nth]. change (kind_eqb KDot KDot) with true. cbn iota.
    change [PTok KDot; name_ref_t] with ([PTok KDot] ++ [name_ref_t] ++ []). eapply D_bind; [dleaf|]. apply D_nth.
    replace (kind_eqb _ KLParen) with false by (destruct n; reflexivity).
    eapply D_bind; [apply D_name_ref_r|apply D_ret].
Qed.
Lemma D_index_path_static fuel n r : n + 2 <= fuel ->
  DoesM (@index_path TO fuel) (path_w n ++ KDot :: KIdent :: KLParen :: r) (KIdent :: KLParen :: r) (PNode KIndexPath (path_t n ++ [PTok KDot])).
Proof.
  intros Hf. unfold index_path. eapply D_node. rewrite path_w_cons, path_t_cons. cbn [app].
  match goal with |- Does _ _ _ _ (?t :: ?l) => change (t :: l) with ([t] ++ l) end.
  eapply D_bind; [apply D_name_ref_r|]. exact (D_path_static _ n fuel r Hf).
Qed.
Lemma D_index_path_method fuel n r : n + 2 <= fuel ->
  DoesM (@index_path TO fuel) (path_w n ++ KColon :: r) (KColon :: r) (PNode KIndexPath (path_t n)).
Proof.
  intros Hf. unfold index_path. eapply D_node. rewrite path_w_cons, path_t_cons. cbn [app].
  match goal with |- Does _ _ _ _ (?t :: ?l) => change (t :: l) with ([t] ++ l) end.
  eapply D_bind; [apply D_name_ref_r|]. exact (D_path_method _ n fuel r Hf).
Qed.

(** A node completed around the node just built, of which the mark is passed on and dropped. *)
Lemma D_pre_drop (m : D nat) (body : D kind) r r1 r2 k0 f0 k f :
  DoesM m r r1 (PNode k0 f0) -> Does body r1 r2 k f ->
  Does (@bind TO _ _ m (fun c => @bind TO _ _ (@pre_node_by TO c body) (fun _ => @ret TO _ tt))) r r2 tt [PNode k (PNode k0 f0 :: f)].
Proof.
  intros H1 H2 F. rewrite (bind_run _ _ _ _ _ (H1 F)).
  rewrite (bind_run _ _ _ _ _ (pre_run F (PNode k0 f0) [] r1 body k f r2 Logic.I (H2 []))). reflexivity.
Qed.

Lemma D_fname fuel f n va r : length (fname_w f) + 2 <= fuel ->
  Does (@function_def_content TO fuel) (fname_w f ++ params_w n va ++ r) (params_w n va ++ r) tt [fname_t f].
Proof.
  intros Hf. unfold function_def_content, fname_t. eapply D_node_. apply D_at. cbn [pacc_test]. apply D_nth.
  destruct f as [|p|p]; cbn [fname_w app] in *.
  - change (nth 0 (KIdent :: params_w n va ++ r) KEof) with KIdent. change (nth 1 (KIdent :: params_w n va ++ r) KEof) with KLParen. cbn [andb].
    change (kind_eqb KIdent KIdent) with true. change (kind_eqb KLParen KLParen) with true. cbn [andb]. apply D_name_r.
  - rewrite app_length, path_w_len in Hf. cbn [length] in Hf. rewrite <- app_assoc. cbn [app].
    replace (_ && _) with false by (destruct p; reflexivity).
    eapply D_pre_drop.
    + unfold params_w. cbn [app]. apply D_index_path_static. lia.
    + apply D_at. cbn [pacc_test nth]. change (kind_eqb KIdent KColon) with false. cbn iota.
      change [name_t] with ([name_t] ++ []). eapply D_bind; [apply D_name_r|apply D_ret].
  - rewrite app_length, path_w_len in Hf. cbn [length] in Hf. rewrite <- app_assoc. cbn [app].
    replace (_ && _) with false by (destruct p; reflexivity).
    eapply D_pre_drop.
    + apply D_index_path_method. lia.
    + apply D_at. cbn [pacc_test nth]. change (kind_eqb KColon KColon) with true. cbn iota.
      change [PTok KColon; name_t] with ([PTok KColon] ++ [name_t] ++ []). eapply D_bind; [dleaf|]. eapply D_bind; [apply D_name_r|apply D_ret].
Qed.
