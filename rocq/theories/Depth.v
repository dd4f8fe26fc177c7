(** Depth.v — the parser on a machine with a bounded call stack. The grammar functions that can be active
    several times at once are [stmt], [expr_bp] and [elseif_branch]; every other one calls itself only through
    them, so at most a fixed number of frames lies between two of their activations. Here [d] of those
    activations fit on the stack, and one more gives [OutOfFuel]. Everything else is the code of Grammar.v; the
    bound [n] on loops is not a limit (see PropsDepth.v). *)
From Verif Require Import Base SyntaxKind TokenSet Lexer BindingPowers Parser Grammar Event Tree TreeSink.

Section Depth.
Context {O : ops}.
Variable n : nat.

(** statements.rs:74-91 [if_stmt], where [elseif] stands for [elseif_branch]. *)
Definition if_stmt_d (stmt : M unit) (expr_bp : nat -> M (option mark)) (elseif : M unit) : M unit :=
  node_ KIfStmt
    (p_bump (PKind KIfKw) ;;
     expr_single expr_bp ;;
     p_expect KThenKw ;;
     block n stmt ;;
     (c <- p_current ;;
      if kind_eqb c KElseifKw then elseif
      else if kind_eqb c KElseKw then else_branch n stmt
      else ret tt) ;;
     p_expect KEndKw).
(** statements.rs:14-72 [stmt]. *)
Definition stmt_body_d (stmt : M unit) (expr_bp : nat -> M (option mark)) (elseif : M unit) : M unit :=
  c <- p_current ;;
  if kind_eqb c KIfKw then if_stmt_d stmt expr_bp elseif ;; p_accept (PKind KSemicolon) ;; ret tt
  else stmt_body n stmt expr_bp.
(** statements.rs:93-109 [elseif_branch]. *)
Definition elseif_body (stmt : M unit) (expr_bp : nat -> M (option mark)) (elseif : M unit) : M unit :=
  node_ KElseIfBranch
    (p_bump (PKind KElseifKw) ;;
     expr_single expr_bp ;;
     p_expect KThenKw ;;
     block n stmt ;;
     c <- p_current ;;
     if kind_eqb c KElseifKw then elseif
     else if kind_eqb c KElseKw then else_branch n stmt
     else ret tt).

(** [d] activations of the three functions fit on the stack. *)
Fixpoint stmt_d (d : nat) : M unit :=
  match d with 0 => out | S d' => stmt_body_d (stmt_d d') (expr_d d') (elseif_d d') end
with expr_d (d : nat) (min_bp : nat) : M (option mark) :=
  match d with 0 => out | S d' => expr_bp_body n (stmt_d d') (expr_d d') min_bp end
with elseif_d (d : nat) : M unit :=
  match d with 0 => out | S d' => elseif_body (stmt_d d') (expr_d d') (elseif_d d') end.

(** grammar.rs:16-23 [root]. *)
Definition root_d (d : nat) : M unit := root n (stmt_d d).
End Depth.

(** parsing.rs:17-28 [parse_text]: the lexer, [event::process] and the tree sink are loops. *)
Definition parse_text_within (d : nat) (t : text) : res (green * list syntax_error) :=
  let? (toks, lex_errs) := tokenize t in
  let? evs := run_grammar (fun n => root_d (O := event_ops) n d) (ts_new_source toks) in
  let? steps := process evs in
  let? (g, perrs) := run_dsink t toks steps in
  Ok (g, perrs ++ lex_errs).
