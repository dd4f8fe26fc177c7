(** WorkProofs.v — the counted parser (Work.v) does what the parser does, and its operations are paid for by
    the events it pushes. *)
From Coq Require Import ZArith.
From Verif Require Import Base SyntaxKind TokenSet Lexer BindingPowers Parser Grammar Event Work.

Notation EO := event_ops.
Notation CO := count_ops.

(** What one event pays for. *)
Definition W : Z := 12.
(** [m] is [m0] counted; its operations cost what its events pay for, and [f] of the result. *)
Definition bnd {A} (m : C A) (m0 : P A) (f : A -> Z) : Prop := forall c st,
  match m0 st with
  | Ok (r, st') => exists c', m c st = Ok ((r, c'), st') /\
      (Z.of_nat c' + W * Z.of_nat (length (p_events st)) <= Z.of_nat c + W * Z.of_nat (length (p_events st')) + f r)%Z
  | Panic => m c st = Panic
  | OutOfFuel => m c st = OutOfFuel
  end.
Lemma bnd_ge {A} (m : C A) m0 f g : bnd m m0 f -> (forall a, f a <= g a)%Z -> bnd m m0 g.
Proof.
  intros H L c st. specialize (H c st). destruct (m0 st) as [[r st']| |]; auto. destruct H as (c' & E & I). exists c'. split; [exact E|]. specialize (L r). lia.
Qed.
Lemma bnd_ret {A} (a : A) f : (0 <= f a)%Z -> bnd (@ret CO A a) (@ret EO A a) f.
Proof. intros H c st. cbn. exists c. split; [reflexivity|lia]. Qed.
Lemma bnd_panic {A} f : bnd (@panic CO A) (@panic EO A) f.
Proof. intros c st. reflexivity. Qed.
Lemma bnd_out {A} f : bnd (@out CO A) (@out EO A) f.
Proof. intros c st. reflexivity. Qed.
Lemma bnd_bind0 {A B} (m : C A) m0 (k : A -> C B) k0 g f : bnd m m0 g -> (forall a, bnd (k a) (k0 a) (fun r => f r - g a)%Z) -> bnd (@bind CO A B m k) (@bind EO A B m0 k0) f.
Proof.
  intros H1 H2 c st. specialize (H1 c st). cbn [bind event_ops count_ops]. unfold pbind, c_bind, pbind. destruct (m0 st) as [[a st1]| |]; cbn [rbind fst snd].
  - destruct H1 as (c1 & E1 & I1). rewrite E1. cbn [rbind fst snd]. specialize (H2 a c1 st1). destruct (k0 a st1) as [[r st2]| |]; auto.
    destruct H2 as (c2 & E2 & I2). exists c2. split; [exact E2|lia].
  - now rewrite H1.
  - now rewrite H1.
Qed.
Lemma bnd_bind {A B} (m : C A) m0 (k : A -> C B) k0 b f : bnd m m0 (fun _ => b) -> (forall a, bnd (k a) (k0 a) (fun r => f r - b)%Z) -> bnd (@bind CO A B m k) (@bind EO A B m0 k0) f.
Proof. intros H1 H2. exact (bnd_bind0 _ _ _ _ (fun _ => b) _ H1 H2). Qed.
Lemma bnd_ext {A} (m m' : C A) m0 m0' f : (forall c st, m c st = m' c st) -> (forall st, m0 st = m0' st) -> bnd m' m0' f -> bnd m m0 f.
Proof. intros E E0 H c st. rewrite E, E0. apply H. Qed.
Lemma bnd_assoc {A B D} (m : C A) m0 (k : A -> C B) k0 (h : B -> C D) h0 f :
  bnd (@bind CO A D m (fun a => @bind CO B D (k a) h)) (@bind EO A D m0 (fun a => @bind EO B D (k0 a) h0)) f ->
  bnd (@bind CO B D (@bind CO A B m k) h) (@bind EO B D (@bind EO A B m0 k0) h0) f.
Proof.
  apply bnd_ext; intros; cbn [bind event_ops count_ops]; unfold c_bind, pbind.
  - destruct (m c st) as [[[a c1] st1]| |]; reflexivity.
  - destruct (m0 st) as [[a st1]| |]; reflexivity.
Qed.
Lemma bnd_ret_bind {A B} (a : A) (h : A -> C B) h0 f : bnd (h a) (h0 a) f -> bnd (@bind CO A B (@ret CO A a) h) (@bind EO A B (@ret EO A a) h0) f.
Proof. intros H. exact H. Qed.
Lemma bnd_panic_bind {A B} (h : A -> C B) h0 f : bnd (@bind CO A B (@panic CO A) h) (@bind EO A B (@panic EO A) h0) f.
Proof. intros c st. reflexivity. Qed.

(** ** The operations *)
Lemma bnd_nth n : bnd (@p_nth CO n) (@p_nth EO n) (fun _ => 1%Z).
Proof. intros c st. cbn [p_nth event_ops count_ops]. unfold op, ev_nth, pbind, pret. cbn [rbind fst snd]. eexists. split; [reflexivity|]. lia. Qed.
Lemma bnd_push e : bnd (@p_push_error CO e) (@p_push_error EO e) (fun _ => (1 - W)%Z).
Proof. intros c st. cbn [p_push_error event_ops count_ops]. unfold op, push_event, pbind, pret. cbn [rbind fst snd]. eexists. split; [reflexivity|]. cbn [p_events]. rewrite app_length. cbn [length]. unfold W. lia. Qed.
Lemma bnd_adv : bnd (@p_adv CO) (@p_adv EO) (fun _ => (1 - W)%Z).
Proof.
  intros c st. cbn [p_adv event_ops count_ops]. 
  destruct (p_advance_expect st) as [[r st']| |] eqn:E.
  2, 3: unfold op; etransitivity; [unfold pbind at 1; rewrite E; reflexivity|reflexivity].
  exists (S c). split; [unfold op; etransitivity; [unfold pbind at 1; rewrite E; reflexivity|reflexivity]|]. unfold p_advance_expect, p_advance, push_event, pbind in E. cbn [rbind fst snd p_src p_events] in E. destruct (ts_bump (p_src st)) as [o s]. cbn [rbind fst snd] in E.
  destruct o as [t|]; cbn in E; [|discriminate]. injection E as _ <-. cbn [p_events]. rewrite app_length. cbn [length]. unfold W. lia.
Qed.
Lemma set_len {A} (l : list A) i x : length (list_set l i x) = length l.
Proof. revert i. induction l as [|y l IH]; intros [|i]; cbn; auto. Qed.
(** A node: [x] for what is inside. *)
Lemma bnd_node_by (m : C kind) m0 x : bnd m m0 (fun _ => x) -> bnd (@node_by CO m) (@node_by EO m0) (fun _ => (x + 2 - 2 * W)%Z).
Proof.
  intros H c st. cbn [node_by event_ops count_ops]. unfold ev_node_by, c_bind, op, pbind, p_start, pret. cbn [rbind fst snd].
  specialize (H (S c) (mkP (p_src st) (p_events st ++ [tombstone]))). destruct (m0 _) as [[k st1]| |]; cbn [rbind fst snd]; [|now rewrite H|now rewrite H].
  destruct H as (c1 & -> & I). cbn [rbind fst snd]. cbn [p_events] in I. rewrite app_length in I. cbn [length] in I.
  unfold m_complete. destruct (nth_error (p_events st1) _) as [[ k' fp| | | | | ]|]; cbn [rbind fst snd]; try reflexivity.
  eexists. split; [reflexivity|]. cbn [p_events]. rewrite app_length, set_len. cbn [length]. unfold W in *. lia.
Qed.
Lemma bnd_pre_by i (m : C kind) m0 x : bnd m m0 (fun _ => x) -> bnd (@pre_node_by CO i m) (@pre_node_by EO i m0) (fun _ => (x + 2 - 2 * W)%Z).
Proof.
  intros H c st. cbn [pre_node_by event_ops count_ops]. unfold ev_pre_node_by, c_bind, op, pbind, c_precede, pret.
  destruct (nth_error (p_events st ++ [tombstone]) (c_start i)) as [[ k0 fp0| | | | | ]|]; cbn [rbind fst snd]; try reflexivity.
  destruct (_ <? _); cbn [rbind fst snd]; [reflexivity|].
  match goal with |- context [m0 ?s] => set (st0 := s); specialize (H (S c) st0) end.
  assert (L : length (p_events st0) = S (length (p_events st))) by (unfold st0; cbn [p_events]; rewrite set_len, app_length; cbn; lia).
  destruct (m0 st0) as [[k st1]| |]; cbn [rbind fst snd]; [|now rewrite H|now rewrite H].
  destruct H as (c1 & -> & I). cbn [rbind fst snd]. unfold m_complete. destruct (nth_error (p_events st1) _) as [[ k' fp| | | | | ]|]; cbn [rbind fst snd]; try reflexivity.
  eexists. split; [reflexivity|]. cbn [p_events]. rewrite app_length, set_len. cbn [length]. unfold W in *. lia.
Qed.
Lemma bnd_err_node (m : C perr) m0 x : bnd m m0 (fun _ => x) -> bnd (@err_node CO m) (@err_node EO m0) (fun _ => (x + 2 - 2 * W)%Z).
Proof.
  intros H c st. cbn [err_node event_ops count_ops]. unfold ev_err_node, c_bind, op, pbind, p_start_error, pret. cbn [rbind fst snd].
  specialize (H (S c) (mkP (p_src st) (p_events st ++ [EStartError]))). destruct (m0 _) as [[k st1]| |]; cbn [rbind fst snd]; [|now rewrite H|now rewrite H].
  destruct H as (c1 & -> & I). cbn [rbind fst snd]. cbn [p_events] in I. rewrite app_length in I. cbn [length] in I.
  unfold m_complete_error. destruct (nth_error (p_events st1) _) as [[ k' fp| | | | | ]|]; cbn [rbind fst snd]; try reflexivity.
  eexists. split; [reflexivity|]. cbn [p_events]. rewrite app_length. cbn [length]. unfold W in *. lia.
Qed.
(** A loop: what continues is paid for. *)
Lemma bnd_loop n (b : C bool) b0 x : bnd b b0 (fun r => if r then 0 else x)%Z -> bnd (@p_loop CO n b) (@p_loop EO n b0) (fun _ => x).
Proof.
  intros H. induction n as [|n IH]; cbn [p_loop]; [apply bnd_out|]. eapply bnd_bind0; [exact H|]. intros [|]; cbv beta iota.
  - eapply bnd_ge; [exact IH|]. intros a; cbv beta. lia.
  - apply bnd_ret; cbv beta. lia.
Qed.
Lemma bnd_while n (k : C bool) k0 (b : C unit) b0 x : bnd (@bind CO bool bool k (fun r : bool => if r then @bind CO unit bool b (fun _ => @ret CO _ true) else @ret CO _ false))
    (@bind EO bool bool k0 (fun r : bool => if r then @bind EO unit bool b0 (fun _ => @ret EO _ true) else @ret EO _ false)) (fun r => if r then 0 else x)%Z ->
  bnd (@p_while CO n k b) (@p_while EO n k0 b0) (fun _ => x).
Proof. intros H. unfold p_while. apply bnd_loop. exact H. Qed.

(** ** The tactic *)
(** Bodies of nodes and of loops cost at most 4. *)
Definition X : Z := 4.
Lemma bnd_node {A} k (m : C A) m0 : bnd (@bind CO _ _ m (fun _ => @ret CO _ k)) (@bind EO _ _ m0 (fun _ => @ret EO _ k)) (fun _ => X) -> bnd (@node CO A k m) (@node EO A k m0) (fun _ => (X + 2 - 2 * W)%Z).
Proof. intros H. unfold node. apply bnd_node_by. exact H. Qed.
Lemma bnd_pre {A} i k (m : C A) m0 : bnd (@bind CO _ _ m (fun _ => @ret CO _ k)) (@bind EO _ _ m0 (fun _ => @ret EO _ k)) (fun _ => X) -> bnd (@pre_node CO A i k m) (@pre_node EO A i k m0) (fun _ => (X + 2 - 2 * W)%Z).
Proof. intros H. unfold pre_node. apply bnd_pre_by. exact H. Qed.
Lemma bnd_node_ {A} k (m : C A) m0 : bnd (@bind CO _ _ m (fun _ => @ret CO _ k)) (@bind EO _ _ m0 (fun _ => @ret EO _ k)) (fun _ => X) -> bnd (@node_ CO A k m) (@node_ EO A k m0) (fun _ => (X + 2 - 2 * W)%Z).
Proof. intros H. unfold node_. eapply bnd_bind; [apply bnd_node, H|]. intros a. apply bnd_ret. lia. Qed.

Create HintDb wk discriminated.
Ltac num := intros; cbv beta iota; unfold W, X in *; lia.
(** A statement of a known cost. *)
Ltac leaf := lazymatch goal with
  | |- bnd (@p_nth _ _) _ _ => apply bnd_nth
  | |- bnd (@p_adv _) _ _ => apply bnd_adv
  | |- bnd (@p_push_error _ _) _ _ => apply bnd_push
  | |- bnd (@p_loop _ _ _) _ _ => apply (bnd_loop _ _ _ X)
  | |- bnd (@p_while _ _ _ _) _ _ => apply (bnd_while _ _ _ _ _ X)
  | |- bnd (@node _ _ _ _) _ _ => apply bnd_node
  | |- bnd (@node_ _ _ _ _) _ _ => apply bnd_node_
  | |- bnd (@pre_node _ _ _ _ _) _ _ => apply bnd_pre
  | |- bnd (@node_by _ _) _ _ => apply (bnd_node_by _ _ X)
  | |- bnd (@pre_node_by _ _ _) _ _ => apply (bnd_pre_by _ _ _ X)
  | |- bnd (@err_node _ _) _ _ => apply (bnd_err_node _ _ X)
  | |- _ => solve [eauto with wk nocore]
  end.
Ltac wk1 := lazymatch goal with
  | |- bnd (@bind _ _ _ (@bind _ _ _ _ _) _) _ _ => apply bnd_assoc
  | |- bnd (@bind _ _ _ (@ret _ _ _) _) _ _ => apply bnd_ret_bind
  | |- bnd (@bind _ _ _ (@panic _ _) _) _ _ => apply bnd_panic_bind
  | |- bnd (@bind _ _ _ (if ?b then _ else _) _) _ _ => destruct b
  | |- bnd (@bind _ _ _ (match ?o with Some _ => _ | None => _ end) _) _ _ => destruct o
  | |- bnd (@bind _ _ _ (@p_at _ _) _) _ _ => unfold p_at
  | |- bnd (@bind _ _ _ (@p_current _) _) _ _ => unfold p_current
  | |- bnd (@bind _ _ _ (@p_accept _ _) _) _ _ => unfold p_accept
  | |- bnd (@bind _ _ _ (@p_bump _ _) _) _ _ => unfold p_bump
  | |- bnd (@bind _ _ _ (@passert _ _) _) _ _ => unfold passert
  | |- bnd (@bind _ _ _ _ _) _ _ => eapply bnd_bind; [leaf|intros ?; cbv beta]
  | |- bnd (if ?b then _ else _) _ _ => destruct b
  | |- bnd (match ?o with Some _ => _ | None => _ end) _ _ => destruct o
  | |- bnd (let (_, _) := ?o in _) _ _ => destruct o
  | |- bnd (@ret _ _ _) _ _ => apply bnd_ret; num
  | |- bnd (@panic _ _) _ _ => apply bnd_panic
  | |- bnd (@out _ _) _ _ => apply bnd_out
  | |- bnd (@p_at _ _) _ _ => unfold p_at
  | |- bnd (@p_current _) _ _ => unfold p_current
  | |- bnd (@p_accept _ _) _ _ => unfold p_accept
  | |- bnd (@p_bump _ _) _ _ => unfold p_bump
  | |- bnd (@passert _ _) _ _ => unfold passert
  | |- bnd _ _ _ => eapply bnd_ge; [leaf|num]
  end.
Ltac wk := repeat (cbv beta zeta; wk1).

(** ** Parser.v and Grammar.v *)
Lemma wk_accept a : bnd (@p_accept CO a) (@p_accept EO a) (fun b => if b then 2 - W else 1)%Z.
Proof. unfold p_accept. wk. Qed.
Lemma wk_expect k : bnd (@p_expect CO k) (@p_expect EO k) (fun _ => -7)%Z.
Proof. unfold p_expect. wk. Qed.
Lemma wk_error m : bnd (@p_error CO m) (@p_error EO m) (fun _ => 1 - W)%Z.
Proof. unfold p_error. wk. Qed.
#[export] Hint Resolve wk_expect wk_error : wk.
Lemma wk_recover m r : bnd (@p_err_recover CO m r) (@p_err_recover EO m r) (fun _ => -9)%Z.
Proof. unfold p_err_recover. wk. Qed.
#[export] Hint Resolve wk_recover : wk.
Lemma wk_err_and_bump m : bnd (@p_err_and_bump CO m) (@p_err_and_bump EO m) (fun _ => -9)%Z.
Proof. unfold p_err_and_bump. wk. Qed.
Lemma wk_err_until n m r : bnd (@p_err_until CO n m r) (@p_err_until EO n m r) (fun _ => -9)%Z.
Proof. unfold p_err_until. wk. Qed.
Lemma wk_bump_ts s : bnd (@p_bump_ts CO s) (@p_bump_ts EO s) (fun _ => -9)%Z.
Proof. unfold p_bump_ts. wk. Qed.
#[export] Hint Resolve wk_err_and_bump wk_err_until wk_bump_ts : wk.
Lemma wk_name_unchecked : bnd (@name_unchecked CO) (@name_unchecked EO) (fun _ => -18)%Z.
Proof. unfold name_unchecked. wk. Qed.
#[export] Hint Resolve wk_name_unchecked : wk.
Lemma wk_name_r r : bnd (@name_r CO r) (@name_r EO r) (fun _ => -8)%Z.
Proof. unfold name_r. wk. Qed.
Lemma wk_name_ref_unchecked : bnd (@name_ref_unchecked CO) (@name_ref_unchecked EO) (fun _ => -18)%Z.
Proof. unfold name_ref_unchecked. wk. Qed.
#[export] Hint Resolve wk_name_r wk_name_ref_unchecked : wk.
Lemma wk_name_ref_r r : bnd (@name_ref_r CO r) (@name_ref_r EO r) (fun _ => -8)%Z.
Proof. unfold name_ref_r. wk. Qed.
Lemma wk_name_ref : bnd (@name_ref CO) (@name_ref EO) (fun _ => -18)%Z.
Proof. unfold name_ref. wk. Qed.
Lemma wk_name : bnd (@name CO) (@name EO) (fun _ => -8)%Z.
Proof. unfold name. wk. Qed.
#[export] Hint Resolve wk_name_ref_r wk_name_ref wk_name : wk.
Lemma wk_multi_name_r n r v : bnd (@multi_name_r CO n r v) (@multi_name_r EO n r v) (fun _ => -18)%Z.
Proof. unfold multi_name_r. wk. Qed.
#[export] Hint Resolve wk_multi_name_r : wk.
Lemma wk_param_list n : bnd (@param_list CO n) (@param_list EO n) (fun _ => -18)%Z.
Proof. unfold param_list. wk. Qed.
Lemma wk_literal : bnd (@literal CO) (@literal EO) (fun _ => -17)%Z.
Proof. unfold literal. wk. Qed.
Lemma wk_table_sep : bnd (@table_sep CO) (@table_sep EO) (fun _ => -18)%Z.
Proof. unfold table_sep. wk. Qed.
Lemma wk_table_correct n : bnd (@table_correct CO n) (@table_correct EO n) (fun _ => -9)%Z.
Proof. unfold table_correct. wk. Qed.
Lemma wk_dot_expr l : bnd (@dot_expr CO l) (@dot_expr EO l) (fun _ => -18)%Z.
Proof. unfold dot_expr. wk. Qed.
Lemma wk_goto : bnd (@goto_stmt CO) (@goto_stmt EO) (fun _ => -18)%Z.
Proof. unfold goto_stmt. wk. Qed.
Lemma wk_label_delim : bnd (@label_delim CO) (@label_delim EO) (fun _ => -18)%Z.
Proof. unfold label_delim. wk. Qed.
#[export] Hint Resolve wk_param_list wk_literal wk_table_sep wk_table_correct wk_dot_expr wk_goto wk_label_delim : wk.
Lemma wk_label : bnd (@label_stmt CO) (@label_stmt EO) (fun _ => -17)%Z.
Proof. unfold label_stmt. wk. Qed.
Lemma wk_break : bnd (@break_stmt CO) (@break_stmt EO) (fun _ => -18)%Z.
Proof. unfold break_stmt. wk. Qed.
Lemma wk_index_path n : bnd (@index_path CO n) (@index_path EO n) (fun _ => -18)%Z.
Proof. unfold index_path. wk. Qed.
#[export] Hint Resolve wk_label wk_break wk_index_path : wk.
Lemma wk_function_def_content n : bnd (@function_def_content CO n) (@function_def_content EO n) (fun _ => -18)%Z.
Proof. unfold function_def_content. wk. Qed.
#[export] Hint Resolve wk_function_def_content : wk.

Section Open.
Variable n : nat.
Variables (st : C unit) (st0 : P unit) (ex : nat -> C (option cmark)) (ex0 : nat -> P (option cmark)).
Hypothesis HS : bnd st st0 (fun _ => -2)%Z.
Hypothesis HE : forall b, bnd (ex b) (ex0 b) (fun _ => -2)%Z.
Hint Resolve HS HE : wk.

Lemma wk_block_raw e : bnd (@block_raw CO n st e) (@block_raw EO n st0 e) (fun _ => -18)%Z.
Proof. unfold block_raw. wk. Qed.
Hint Resolve wk_block_raw : wk.
Lemma wk_block : bnd (@block CO n st) (@block EO n st0) (fun _ => -18)%Z.
Proof. unfold block. wk. Qed.
Lemma wk_root : bnd (@root CO n st) (@root EO n st0) (fun _ => -18)%Z.
Proof. unfold root, root_block. wk. Qed.
Lemma wk_single : bnd (@expr_single CO ex) (@expr_single EO ex0) (fun _ => -2)%Z.
Proof. apply HE. Qed.
Hint Resolve wk_block wk_single : wk.
Lemma wk_expr : bnd (@expr CO n ex) (@expr EO n ex0) (fun _ => -18)%Z.
Proof. unfold expr, expr_multi. wk. Qed.
Lemma wk_paren : bnd (@paren_expr CO ex) (@paren_expr EO ex0) (fun _ => -18)%Z.
Proof. unfold paren_expr. wk. Qed.
Lemma wk_index : bnd (@index CO ex) (@index EO ex0) (fun _ => -18)%Z.
Proof. unfold index. wk. Qed.
Hint Resolve wk_expr wk_paren wk_index : wk.
Lemma wk_table_content : bnd (@table_content CO ex) (@table_content EO ex0) (fun _ => -18)%Z.
Proof. unfold table_content. wk. Qed.
Lemma wk_table_inner : bnd (@table_inner CO n) (@table_inner EO n) (fun _ => 4)%Z.
Proof. unfold table_inner. wk. Qed.
Hint Resolve wk_table_content wk_table_inner : wk.
Lemma wk_table : bnd (@table_expr CO n ex) (@table_expr EO n ex0) (fun _ => -18)%Z.
Proof. unfold table_expr. wk. Qed.
Lemma wk_function : bnd (@function_expr CO n st) (@function_expr EO n st0) (fun _ => -18)%Z.
Proof. unfold function_expr. wk. Qed.
Lemma wk_arg_list : bnd (@arg_list CO n ex) (@arg_list EO n ex0) (fun _ => -18)%Z.
Proof. unfold arg_list. wk. Qed.
Hint Resolve wk_table wk_function wk_arg_list : wk.
Lemma wk_call_args : bnd (@call_args CO n ex) (@call_args EO n ex0) (fun _ => -17)%Z.
Proof. unfold call_args. wk. Qed.
Hint Resolve wk_call_args : wk.
Lemma wk_call l : bnd (@call_expr CO n ex l) (@call_expr EO n ex0 l) (fun _ => -18)%Z.
Proof. unfold call_expr. wk. Qed.
Lemma wk_index_expr l : bnd (@index_expr CO ex l) (@index_expr EO ex0 l) (fun _ => -18)%Z.
Proof. unfold index_expr. wk. Qed.
Lemma wk_method l : bnd (@method_call_expr CO n ex l) (@method_call_expr EO n ex0 l) (fun _ => -18)%Z.
Proof. unfold method_call_expr. wk. Qed.
Hint Resolve wk_call wk_index_expr wk_method : wk.
Lemma wk_postfix m : forall l b, bnd (@postfix_expr CO n ex m l b) (@postfix_expr EO n ex0 m l b) (fun _ => 2)%Z.
Proof. induction m as [|m IH]; intros l b; cbn [postfix_expr]; wk. Qed.
Lemma wk_prefix r : bnd (@prefix_expr CO ex r) (@prefix_expr EO ex0 r) (fun _ => -18)%Z.
Proof. unfold prefix_expr. wk. Qed.
Hint Resolve wk_postfix wk_prefix : wk.
Lemma wk_atom : bnd (@atom_expr CO n st ex) (@atom_expr EO n st0 ex0) (fun _ => -6)%Z.
Proof. unfold atom_expr. wk. Qed.
Hint Resolve wk_atom : wk.
Lemma wk_lhs : bnd (@lhs CO n st ex) (@lhs EO n st0 ex0) (fun _ => -3)%Z.
Proof. unfold lhs. wk. Qed.
Lemma wk_infix m : forall b l, bnd (@infix_loop CO ex m b l) (@infix_loop EO ex0 m b l) (fun _ => 1)%Z.
Proof. induction m as [|m IH]; intros b l; cbn [infix_loop]; wk. Qed.
Hint Resolve wk_lhs wk_infix : wk.
Lemma wk_expr_body b : bnd (@expr_bp_body CO n st ex b) (@expr_bp_body EO n st0 ex0 b) (fun _ => -2)%Z.
Proof. unfold expr_bp_body. wk. Qed.
Lemma wk_else : bnd (@else_branch CO n st) (@else_branch EO n st0) (fun _ => -18)%Z.
Proof. unfold else_branch. wk. Qed.
Hint Resolve wk_else : wk.
Lemma wk_elseif m : bnd (@elseif_branch CO n st ex m) (@elseif_branch EO n st0 ex0 m) (fun _ => -18)%Z.
Proof. induction m as [|m IH]; cbn [elseif_branch]; wk. Qed.
Hint Resolve wk_elseif : wk.
Lemma wk_if : bnd (@if_stmt CO n st ex) (@if_stmt EO n st0 ex0) (fun _ => -18)%Z.
Proof. unfold if_stmt. wk. Qed.
Lemma wk_while_stmt : bnd (@while_stmt CO n st ex) (@while_stmt EO n st0 ex0) (fun _ => -18)%Z.
Proof. unfold while_stmt. wk. Qed.
Lemma wk_generic : bnd (@generic_for CO n ex) (@generic_for EO n ex0) (fun _ => -17)%Z.
Proof. unfold generic_for. wk. Qed.
Lemma wk_numeric : bnd (@numeric_for CO n ex) (@numeric_for EO n ex0) (fun _ => -17)%Z.
Proof. unfold numeric_for. wk. Qed.
Hint Resolve wk_if wk_while_stmt wk_generic wk_numeric : wk.
Lemma wk_for_content : bnd (@for_content CO n ex) (@for_content EO n ex0) (fun _ => -18)%Z.
Proof. unfold for_content. wk. Qed.
Hint Resolve wk_for_content : wk.
Lemma wk_for : bnd (@for_stmt CO n st ex) (@for_stmt EO n st0 ex0) (fun _ => -18)%Z.
Proof. unfold for_stmt. wk. Qed.
Lemma wk_repeat : bnd (@repeat_until_stmt CO n st ex) (@repeat_until_stmt EO n st0 ex0) (fun _ => -18)%Z.
Proof. unfold repeat_until_stmt. wk. Qed.
Lemma wk_expr_stmt : bnd (@expr_stmt CO n ex) (@expr_stmt EO n ex0) (fun _ => -18)%Z.
Proof. unfold expr_stmt. wk. Qed.
Lemma wk_local_function : bnd (@local_function_def_stmt CO n st) (@local_function_def_stmt EO n st0) (fun _ => -18)%Z.
Proof. unfold local_function_def_stmt. wk. Qed.
Lemma wk_function_def : bnd (@function_def_stmt CO n st) (@function_def_stmt EO n st0) (fun _ => -18)%Z.
Proof. unfold function_def_stmt. wk. Qed.
Lemma wk_do : bnd (@do_stmt CO n st) (@do_stmt EO n st0) (fun _ => -18)%Z.
Proof. unfold do_stmt. wk. Qed.
Lemma wk_return : bnd (@return_stmt CO n ex) (@return_stmt EO n ex0) (fun _ => -18)%Z.
Proof. unfold return_stmt. wk. Qed.
Lemma wk_local_assign : bnd (@local_assign_stmt CO n ex) (@local_assign_stmt EO n ex0) (fun _ => -18)%Z.
Proof. unfold local_assign_stmt. wk. Qed.
Hint Resolve wk_for wk_repeat wk_expr_stmt wk_local_function wk_function_def wk_do wk_return wk_local_assign : wk.
Lemma wk_local : bnd (@local_stmt CO n st ex) (@local_stmt EO n st0 ex0) (fun _ => -17)%Z.
Proof. unfold local_stmt. wk. Qed.
Hint Resolve wk_local : wk.
Lemma wk_stmt_body : bnd (@stmt_body CO n st ex) (@stmt_body EO n st0 ex0) (fun _ => -2)%Z.
Proof. unfold stmt_body. wk. Qed.
End Open.

Lemma wk_knot n : bnd (@stmt_f CO n) (@stmt_f EO n) (fun _ => -2)%Z /\ (forall b, bnd (@expr_f CO n b) (@expr_f EO n b) (fun _ => -2)%Z).
Proof.
  induction n as [|n [IS IE]]; cbn [stmt_f expr_f]; [split; intros; apply bnd_out|].
  split; [apply wk_stmt_body; assumption|intros b; apply wk_expr_body; assumption].
Qed.
Lemma wk_root_f n : bnd (@root_f CO n) (@root_f EO n) (fun _ => -18)%Z.
Proof. unfold root_f. apply wk_root, wk_knot. Qed.
(** The counted parser: the same events, and operations paid for by them. *)
Lemma parse_work_spec s : match parse_events s with
  | Ok evs => exists w, parse_work s = Ok (evs, w) /\ w <= 12 * length evs
  | Panic => parse_work s = Panic
  | OutOfFuel => parse_work s = OutOfFuel
  end.
Proof.
  pose proof (wk_root_f (parse_fuel s) 0 (mkP s [])) as H. unfold parse_events, run_grammar, parse_work.
  destruct (@root_f EO (parse_fuel s) (mkP s [])) as [[r st]| |]; cbn [rbind].
  - destruct H as (c' & E & I). rewrite E. cbn [rbind snd]. eexists. split; [reflexivity|]. cbn [p_events length] in I. unfold W in I. lia.
  - now rewrite H.
  - now rewrite H.
Qed.
