(** Parser.v — crates/parser/src/parser.rs (Parser, Marker, CompletedMarker),
    parse_error.rs, event.rs:7-25 and crates/syntax/src/parsing/text_token_source.rs. *)
From Verif Require Import Base SyntaxKind TokenSet Lexer.

(** ** Errors and events *)

(** crates/parser/src/parse_error.rs:8-15 [ParseError]. *)
Inductive perr :=
| PMsg (m : string)
| PExpected (expected got : kind).

(** The Display impl derived by thiserror (parse_error.rs:9-14). *)
Definition perr_display (e : perr) : string :=
  match e with
  | PMsg m => m
  | PExpected e g => ("Expected " ++ kind_name e ++ ", got " ++ kind_name g)%string
  end.

(** crates/parser/src/event.rs:7-19 [Event]. *)
Inductive event :=
| EStart (k : kind) (fp : option nat)
| EFinish
| EStartError
| EFinishError (e : perr)
| EToken
| EError (e : perr).

(** event.rs:22-24 [Event::tombstone]. *)
Definition tombstone : event := EStart KTombstone None.

(** ** Token source: crates/syntax/src/parsing/text_token_source.rs *)

(** text_token_source.rs:8-17 [TextTokenSource] (the [text] field is only used by
    [is_keyword], which nothing calls). *)
Record token_source := mkTS
  { ts_pairs : list (token * nat); ts_curr : token; ts_pos : nat }.

(** text_token_source.rs:78-83 [mk_token]. *)
Definition mk_token (pos : nat) (pairs : list (token * nat)) : token :=
  match nth_error pairs pos with
  | Some (t, _) => t
  | None => mkToken KEof 0
  end.

(** text_token_source.rs:21-31: the filter_map dropping trivia and recording offsets. *)
Fixpoint ts_filter (len : nat) (raw : list token) : list (token * nat) :=
  match raw with
  | [] => []
  | t :: raw' =>
    let rest := ts_filter (len + t_len t) raw' in
    if is_trivia (t_kind t) then rest else (t, len) :: rest
  end.

(** text_token_source.rs:20-36 [new]. *)
Definition ts_new_source (raw : list token) : token_source :=
  let pairs := ts_filter 0 raw in
  mkTS pairs (mk_token 0 pairs) 0.

(** text_token_source.rs:59-61 [lookahead_nth]. *)
Definition ts_lookahead (s : token_source) (n : nat) : token :=
  mk_token (ts_pos s + n) (ts_pairs s).

(** text_token_source.rs:63-71 [bump]. *)
Definition ts_bump (s : token_source) : option token * token_source :=
  if kind_eqb (t_kind (ts_curr s)) KEof then (None, s)
  else
    let c := mk_token (ts_pos s + 1) (ts_pairs s) in
    (Some c, mkTS (ts_pairs s) c (ts_pos s + 1)).

(** ** Parser state and monad *)

(** parser.rs:10-13 [Parser { token_source, events }]. *)
Record pstate := mkP { p_src : token_source; p_events : list event }.

Definition P (A : Type) : Type := pstate -> res (A * pstate).
Definition pret {A} (a : A) : P A := fun st => Ok (a, st).
Definition pbind {A B} (m : P A) (f : A -> P B) : P B :=
  fun st => rbind (m st) (fun r => f (fst r) (snd r)).
Definition ppanic {A} : P A := fun _ => Panic.
Definition pout {A} : P A := fun _ => OutOfFuel.

(** parser.rs:61-63 [push_event]. *)
Definition push_event (e : event) : P unit :=
  fun st => Ok (tt, mkP (p_src st) (p_events st ++ [e])).

(** parser.rs:18-21 [advance]. *)
Definition p_advance : P (option kind) :=
  pbind (push_event EToken) (fun _ st =>
    let (o, s) := ts_bump (p_src st) in
    Ok (option_map t_kind o, mkP s (p_events st))).

(** accept.rs:70-80: [advance().expect(..)] inside the default [accept]. *)
Definition p_advance_expect : P unit :=
  pbind p_advance (fun o => match o with Some _ => pret tt | None => ppanic end).

(** ** Markers *)

(** parser.rs:147-152 [Marker]: only the position matters. The drop bomb is modelled by making
    every path that would drop a live marker a panic. *)
Definition marker := nat.
(** parser.rs:216-221 [CompletedMarker]. *)
Record cmark := mkC { c_start : nat; c_finish : nat; c_kind : kind }.

(** parser.rs:49-53 [start]. *)
Definition p_start : P marker :=
  fun st => Ok (length (p_events st), mkP (p_src st) (p_events st ++ [tombstone])).

(** parser.rs:55-59 [start_error]. *)
Definition p_start_error : P marker :=
  fun st => Ok (length (p_events st), mkP (p_src st) (p_events st ++ [EStartError])).

Fixpoint list_set {A} (l : list A) (i : nat) (x : A) : list A :=
  match l, i with
  | [], _ => []
  | _ :: l', 0 => x :: l'
  | y :: l', S i' => y :: list_set l' i' x
  end.

(** parser.rs:169-185 [Marker<RegularMarker>::complete]. *)
Definition m_complete (m : marker) (k : kind) : P cmark :=
  fun st =>
    match nth_error (p_events st) m with
    | Some (EStart _ fp) =>
      let evs := list_set (p_events st) m (EStart k fp) in
      Ok (mkC m (length evs) k, mkP (p_src st) (evs ++ [EFinish]))
    | _ => Panic
    end.

(** parser.rs:202-214 [Marker<ErrorMarker>::complete]. *)
Definition m_complete_error (m : marker) (e : perr) : P unit :=
  fun st =>
    match nth_error (p_events st) m with
    | Some EStartError => Ok (tt, mkP (p_src st) (p_events st ++ [EFinishError e]))
    | _ => Panic
    end.

(** parser.rs:244-254 [precede]. *)
Definition c_precede (c : cmark) : P marker :=
  fun st =>
    let new_pos := length (p_events st) in
    let evs := p_events st ++ [tombstone] in
    match nth_error evs (c_start c) with
    | Some (EStart k _) =>
      if new_pos <? c_start c then Panic
      else Ok (new_pos, mkP (p_src st)
                 (list_set evs (c_start c) (EStart k (Some (new_pos - c_start c)))))
    | _ => Panic
    end.

(** ** The interface the grammar is written against

    The grammar (Grammar.v) uses the parser only through the operations below, so it is written
    once, over an arbitrary implementation of them. [event_ops] is the real implementation: the
    event list with markers of parser.rs. ParserTree.v gives a second one that builds the tree
    directly, and proves that the two agree. *)
Class ops := mkOps {
  M : Type -> Type;
  mark : Type;                                      (* CompletedMarker *)
  ret : forall {A}, A -> M A;
  bind : forall {A B}, M A -> (A -> M B) -> M B;
  panic : forall {A}, M A;
  out : forall {A}, M A;
  p_nth : nat -> M kind;                            (* parser.rs:23-26 [nth] *)
  p_adv : M unit;                                   (* [advance().expect(..)] *)
  p_push_error : perr -> M unit;                    (* push_event(Event::Error(..)) *)
  node_by : M kind -> M mark;
  pre_node_by : mark -> M kind -> M mark;
  err_node : M perr -> M unit }.

(** parser.rs:23-26 [nth]. *)
Definition ev_nth (n : nat) : P kind :=
  fun st => Ok (t_kind (ts_lookahead (p_src st) n), st).
(** The idiom [let m = p.start(); body; m.complete(p, K)]; the kind may depend on the body. *)
Definition ev_node_by (body : P kind) : P cmark :=
  pbind p_start (fun m => pbind body (fun k => m_complete m k)).
(** The idiom [let m = lhs.precede(p); body; m.complete(p, K)]. *)
Definition ev_pre_node_by (c : cmark) (body : P kind) : P cmark :=
  pbind (c_precede c) (fun m => pbind body (fun k => m_complete m k)).
(** The idiom [let m = p.start_error(); body; m.complete(p, err)]. *)
Definition ev_err_node (body : P perr) : P unit :=
  pbind p_start_error (fun m => pbind body (fun e => m_complete_error m e)).

Definition event_ops : ops :=
  {| M := P; mark := cmark; ret := @pret; bind := @pbind; panic := @ppanic; out := @pout;
     p_nth := ev_nth; p_adv := p_advance_expect;
     p_push_error := fun e => push_event (EError e);
     node_by := ev_node_by; pre_node_by := ev_pre_node_by; err_node := ev_err_node |}.

Declare Scope p_scope.
Delimit Scope p_scope with P.
Notation "x <- m ;; k" := (bind m (fun x => k))
  (at level 61, m at next level, right associativity) : p_scope.
Notation "m ;; k" := (bind m (fun _ => k))
  (at level 61, right associativity) : p_scope.
Open Scope p_scope.

(** The three things the grammar passes to [at]/[accept]/[bump]: a kind
    (syntax_kind.rs:21-29), a TokenSet (token_set.rs:47-56) and Any (accept.rs:133-145 with
    parser.rs:28-30). *)
Inductive pacc := PKind (k : kind) | PSet (s : token_set) | PAny.
Definition pacc_test (a : pacc) (k : kind) : bool :=
  match a with
  | PKind j => kind_eqb k j
  | PSet s => ts_contains s k
  | PAny => negb (kind_eqb k KEof)
  end.

Section Generic.
Context {O : ops}.

Definition passert (b : bool) : M unit := if b then ret tt else panic.

(** source.rs:26-28 [current]. *)
Definition p_current : M kind := p_nth 0.

(** accept.rs:10-15 [at]. *)
Definition p_at (a : pacc) : M bool := k <- p_current ;; ret (pacc_test a k).

(** accept.rs:70-80 [accept]: peek, then [advance().expect(..)]. *)
Definition p_accept (a : pacc) : M bool :=
  b <- p_at a ;;
  if b then p_adv ;; ret true else ret false.

(** accept.rs:89-94 [bump]. *)
Definition p_bump (a : pacc) : M unit := b <- p_accept a ;; passert b.

(** A node of fixed kind, as in almost every grammar function. *)
Definition node {A} (k : kind) (body : M A) : M mark := node_by (body ;; ret k).
(** The same where every caller drops the returned CompletedMarker. *)
Definition node_ {A} (k : kind) (body : M A) : M unit := node k body ;; ret tt.
Definition pre_node {A} (c : mark) (k : kind) (body : M A) : M mark :=
  pre_node_by c (body ;; ret k).

(** [loop { body }] where body returns false to break; divergence is OutOfFuel. *)
Fixpoint p_loop (fuel : nat) (body : M bool) : M unit :=
  match fuel with
  | 0 => out
  | S fuel' => b <- body ;; if b then p_loop fuel' body else ret tt
  end.
(** [while cond { body }]. *)
Definition p_while (fuel : nat) (cond : M bool) (body : M unit) : M unit :=
  p_loop fuel (b <- cond ;; if b then body ;; ret true else ret false).

(** ** Error helpers *)

(** parser.rs:65-67 [error]. *)
Definition p_error (m : string) : M unit := p_push_error (PMsg m).

(** parser.rs:74-91 [err_recover]. *)
Definition p_err_recover (m : string) (recovery : token_set) : M unit :=
  c <- p_current ;;
  if kind_eqb c KEndKw then p_error m
  else
    b <- p_at (PSet recovery) ;;
    if b then p_error m
    else
      err_node (p_accept PAny ;; ret (PMsg m)).

(** parser.rs:93-95 [err_and_bump]. *)
Definition p_err_and_bump (m : string) : M unit := p_err_recover m ts_empty.

(** parser.rs:97-107 [err_until]. *)
Definition p_err_until (fuel : nat) (m : string) (recovery : token_set) : M unit :=
  let recovery := ts_union recovery (ts_new [KEndKw]) in
  err_node
    (p_while fuel
       (b1 <- p_at (PSet recovery) ;;
        if b1 then ret false else b2 <- p_at (PKind KEof) ;; ret (negb b2))
       (p_bump PAny) ;;
     ret (PMsg m)).

(** parser.rs:119-124 [bump_ts]. *)
Definition p_bump_ts (s : token_set) : M unit :=
  b <- p_at (PSet s) ;;
  if b then p_bump PAny else panic.

(** parser.rs:128-136 [expect]. *)
Definition p_expect (k : kind) : M bool :=
  c <- p_current ;;
  if kind_eqb c k then p_bump PAny ;; ret true
  else p_push_error (PExpected k c) ;; ret false.

End Generic.
