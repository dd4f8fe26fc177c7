(** TreeSink.v — crates/syntax/src/parsing/text_tree_sink.rs and parsing.rs. *)
From Verif Require Import Base SyntaxKind Lexer Parser Grammar Event Tree.

(** text_tree_sink.rs:7-14 [TextTreeSink] with syntax_node.rs:60-63 [SyntaxTreeBuilder]
    flattened in. *)
Record tsink := mkSink
  { k_text : text;
    k_tokens : list token;
    k_text_pos : nat;
    k_token_pos : nat;
    k_inner : builder;
    k_errors : list syntax_error;
    k_error_ranges : list range }.

(** text_tree_sink.rs:54-63 [new]. *)
Definition tsink_new (t : text) (toks : list token) : tsink :=
  mkSink t toks 0 0 builder_new [] [].

Definition with_inner (s : tsink) (b : builder) : tsink :=
  mkSink (k_text s) (k_tokens s) (k_text_pos s) (k_token_pos s) b (k_errors s)
         (k_error_ranges s).

(** text-size [TextRange::cover]. *)
Definition range_cover (a b : range) : range :=
  mkRange (Nat.min (r_start a) (r_start b)) (Nat.max (r_end a) (r_end b)).

(** text_tree_sink.rs:78-92 [do_token] and [update_error_ranges]. *)
Definition do_token (s : tsink) : res tsink :=
  let? tok := runwrap (nth_error (k_tokens s) (k_token_pos s)) in
  let r := mkRange (k_text_pos s) (k_text_pos s + t_len tok) in
  let? t := bslice (k_text s) (r_start r) (r_end r) in
  Ok (mkSink (k_text s) (k_tokens s) (k_text_pos s + t_len tok) (S (k_token_pos s))
             (b_token (t_kind tok) t (k_inner s)) (k_errors s)
             (map (fun er => range_cover er r) (k_error_ranges s))).

(** text_tree_sink.rs:69-76 [eat_trivias]. *)
Fixpoint eat_trivias_loop (fuel : nat) (s : tsink) : res tsink :=
  match fuel with
  | 0 => OutOfFuel
  | S fuel' =>
    match nth_error (k_tokens s) (k_token_pos s) with
    | None => Ok s
    | Some tok =>
      if is_trivia (t_kind tok) then let? s := do_token s in eat_trivias_loop fuel' s
      else Ok s
    end
  end.
Definition eat_trivias (s : tsink) : res tsink :=
  eat_trivias_loop (S (length (k_tokens s))) s.

(** text_tree_sink.rs:19-22 [token]. *)
Definition ts_token (s : tsink) : res tsink := let? s := eat_trivias s in do_token s.
(** text_tree_sink.rs:24-28 [start_node]. *)
Definition ts_start_node (k : kind) (s : tsink) : res tsink :=
  let? s := eat_trivias s in
  eat_trivias (with_inner s (b_start k (k_inner s))).
(** text_tree_sink.rs:30-32 [finish_node]. *)
Definition ts_finish_node (s : tsink) : res tsink :=
  let? b := b_finish_node (k_inner s) in Ok (with_inner s b).
(** syntax_node.rs:90-92 [SyntaxTreeBuilder::error]. *)
Definition ts_push_error (e : perr) (r : range) (s : tsink) : tsink :=
  mkSink (k_text s) (k_tokens s) (k_text_pos s) (k_token_pos s) (k_inner s)
         (k_errors s ++ [mkErr (perr_display e) r]) (k_error_ranges s).
(** text_tree_sink.rs:34-37 [start_error_node]. *)
Definition ts_start_error_node (s : tsink) : res tsink :=
  let? s := ts_start_node KError s in
  Ok (mkSink (k_text s) (k_tokens s) (k_text_pos s) (k_token_pos s) (k_inner s) (k_errors s)
             (k_error_ranges s ++ [mkRange (k_text_pos s) (k_text_pos s)])).
(** text_tree_sink.rs:39-42 [finish_error_node]. *)
Definition ts_finish_error_node (e : perr) (s : tsink) : res tsink :=
  let? s := ts_finish_node s in
  match rev (k_error_ranges s) with
  | [] => Panic
  | r :: _ =>
    Ok (ts_push_error e r
         (mkSink (k_text s) (k_tokens s) (k_text_pos s) (k_token_pos s) (k_inner s)
                 (k_errors s) (removelast (k_error_ranges s))))
  end.
(** text_tree_sink.rs:44-46 [error]. *)
Definition ts_error (e : perr) (s : tsink) : res tsink :=
  Ok (ts_push_error e (mkRange (k_text_pos s) (k_text_pos s)) s).
(** text_tree_sink.rs:48-50 [finish] -> syntax_node.rs:66-69 [finish_raw]. *)
Definition ts_finish (s : tsink) : res (green * list syntax_error) :=
  let? g := b_finish (k_inner s) in Ok (g, k_errors s).

Definition ts_step (st : step) (s : tsink) : res tsink :=
  match st with
  | SStart k => ts_start_node k s
  | SFinish => ts_finish_node s
  | STok => ts_token s
  | SErr e => ts_error e s
  | SStartErr => ts_start_error_node s
  | SFinishErr e => ts_finish_error_node e s
  end.

Fixpoint ts_steps (l : list step) (s : tsink) : res tsink :=
  match l with
  | [] => Ok s
  | st :: l' => let? s := ts_step st s in ts_steps l' s
  end.

(** Driving a plain TextTreeSink (used by reparsing.rs:75). *)
Definition run_tsink (t : text) (toks : list token) (l : list step)
  : res (green * list syntax_error) :=
  let? s := ts_steps l (tsink_new t toks) in ts_finish s.

(** ** text_tree_sink.rs:117-122 [DeferedTextTreeSink] *)
Record dsink := mkD { d_sink : tsink; d_defer : nat; d_started : nat; d_finished : nat }.

(** text_tree_sink.rs:183-186 [new]. *)
Definition dsink_new (t : text) (toks : list token) (defer : nat) : dsink :=
  mkD (tsink_new t toks) defer 0 0.

Fixpoint finish_n (n : nat) (s : tsink) : res tsink :=
  match n with
  | 0 => Ok s
  | S n' => let? s := ts_finish_node s in finish_n n' s
  end.

(** text_tree_sink.rs:188-193 [consume_finish_defers]. *)
Definition consume_finish_defers (d : dsink) : res dsink :=
  let? s := finish_n (d_finished d) (d_sink d) in
  Ok (mkD s (d_defer d) (d_started d) 0).

Definition d_with (d : dsink) (s : tsink) : dsink :=
  mkD s (d_defer d) (d_started d) (d_finished d).

(** text_tree_sink.rs:126-132 [token]. *)
Definition d_token (d : dsink) : res dsink :=
  let? _ := rassert (d_started d =? d_defer d) in
  let? d := consume_finish_defers d in
  let? s := ts_token (d_sink d) in Ok (d_with d s).
(** text_tree_sink.rs:134-144 [start_node]. *)
Definition d_start_node (k : kind) (d : dsink) : res dsink :=
  let? d := consume_finish_defers d in
  if d_started d <? d_defer d then
    Ok (mkD (with_inner (d_sink d) (b_start k (k_inner (d_sink d))))
            (d_defer d) (S (d_started d)) (d_finished d))
  else let? s := ts_start_node k (d_sink d) in Ok (d_with d s).
(** text_tree_sink.rs:146-153 [finish_node]. *)
Definition d_finish_node (d : dsink) : res dsink :=
  if d_finished d <? d_defer d then
    Ok (mkD (d_sink d) (d_defer d) (d_started d) (S (d_finished d)))
  else let? s := ts_finish_node (d_sink d) in Ok (d_with d s).
(** text_tree_sink.rs:155-159 [error]. *)
Definition d_error (e : perr) (d : dsink) : res dsink :=
  let? _ := rassert (d_started d =? d_defer d) in
  let? s := ts_error e (d_sink d) in Ok (d_with d s).
(** text_tree_sink.rs:161-167 [start_error_node]. *)
Definition d_start_error_node (d : dsink) : res dsink :=
  let? _ := rassert (d_started d =? d_defer d) in
  let? d := consume_finish_defers d in
  let? s := ts_start_error_node (d_sink d) in Ok (d_with d s).
(** text_tree_sink.rs:169-173 [finish_error_node]. *)
Definition d_finish_error_node (e : perr) (d : dsink) : res dsink :=
  let? s := ts_finish_error_node e (d_sink d) in Ok (d_with d s).
(** text_tree_sink.rs:175-179 [finish]. *)
Definition d_finish (d : dsink) : res (green * list syntax_error) :=
  let? s := eat_trivias (d_sink d) in
  let? d := consume_finish_defers (d_with d s) in
  ts_finish (d_sink d).

Definition d_step (st : step) (d : dsink) : res dsink :=
  match st with
  | SStart k => d_start_node k d
  | SFinish => d_finish_node d
  | STok => d_token d
  | SErr e => d_error e d
  | SStartErr => d_start_error_node d
  | SFinishErr e => d_finish_error_node e d
  end.

Fixpoint d_steps (l : list step) (d : dsink) : res dsink :=
  match l with
  | [] => Ok d
  | st :: l' => let? d := d_step st d in d_steps l' d
  end.

(** parsing.rs:15 [DEFER_AMOUNT]. *)
Definition DEFER_AMOUNT : nat := 2.

Definition run_dsink (t : text) (toks : list token) (l : list step)
  : res (green * list syntax_error) :=
  let? d := d_steps l (dsink_new t toks DEFER_AMOUNT) in d_finish d.

(** parsing.rs:17-28 [parse_text] after tokenization. *)
Definition parse_tokens (t : text) (toks : list token) : res (green * list syntax_error) :=
  let? evs := parse_events (ts_new_source toks) in
  let? steps := process evs in
  run_dsink t toks steps.

(** parsing.rs:17-28 [parse_text]: parser errors followed by lexer errors. *)
Definition parse_text (t : text) : res (green * list syntax_error) :=
  let? (toks, lex_errs) := tokenize t in
  let? (g, perrs) := parse_tokens t toks in
  Ok (g, perrs ++ lex_errs).
