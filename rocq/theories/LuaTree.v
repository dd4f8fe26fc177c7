(** LuaTree.v — facts about the trees of LuaSyntax.v: they contain no errors, expression statements
    are calls and assignment targets are variables, and trees determine programs up to layout. *)
From Verif Require Import Base SyntaxKind TokenSet Lexer LexSpec Parser Grammar ParserTree ParserTotal ParserTotal2 GrammarSpec Tree Ast
  ParseSpec ParseProofs LuaSyntax LuaComplete.

(** What validation looks at. *)
Definition good_node (k : kind) (f : forest) : Prop :=
  (k = KExprStmt -> exists c, is_call c = true /\ f = [PNode KMultivalExpr [exp_t c]]) /\
  (k = KAssignStmt -> exists ts es, all_vars ts = true /\
     f = [PNode KMultivalExpr (exps_t ts); PTok KEq; PNode KMultivalExpr (exps_t es)]).

Definition clean (f : forest) : Prop := noerrs f = true /\ every good_node f.
Lemma clean_nil : clean [].
Proof. split; [reflexivity|apply every_nil]. Qed.
Lemma clean_app a b : clean a -> clean b -> clean (a ++ b).
Proof. intros [A1 A2] [B1 B2]. split; [rewrite noerrs_app, A1, B1; reflexivity|apply every_app; auto]. Qed.
Lemma clean_cons t b : clean [t] -> clean b -> clean (t :: b).
Proof. apply (clean_app [t] b). Qed.
Lemma clean_tok k : clean [PTok k].
Proof. split; [reflexivity|apply every_tok]. Qed.
Lemma clean_node k f : good_node k f -> clean f -> clean [PNode k f].
Proof. intros H [A1 A2]. split; [|apply every_node; auto]. cbn [noerrs forallb noerr]. change (forallb noerr f) with (noerrs f). now rewrite A1. Qed.
Lemma good_other k f : k <> KExprStmt -> k <> KAssignStmt -> good_node k f.
Proof. split; intros; contradiction. Qed.

Ltac cl1 :=
  match goal with
  | H : clean ?f |- clean ?f => exact H
  | |- clean [] => apply clean_nil
  | |- clean [PTok _] => apply clean_tok
  | |- clean [PNode _ _] => apply clean_node; [try (apply good_other; discriminate)|]
  | |- clean (_ ++ _) => apply clean_app
  | |- clean (_ :: ?r) => lazymatch r with [] => fail | _ => apply clean_cons end
  end.
Ltac cl := repeat cl1.

Lemma names_clean n : clean (names_t n).
Proof. induction n; cbn [names_t]; unfold name_t; cl. Qed.
Lemma path_clean n : clean (path_t n).
Proof. induction n; cbn [path_t]; unfold name_ref_t; cl. Qed.
Lemma params_clean n va : clean [params_t n va].
Proof. unfold params_t. destruct n, va; cbn [app]; cl; apply names_clean. Qed.
Lemma fname_clean f : clean [fname_t f].
Proof. unfold fname_t, name_t. destruct f; cl; apply path_clean. Qed.

Section Dialect.
Variable D : dialect.
Ltac bs := repeat match goal with H : _ && _ = true |- _ => apply andb_true_iff in H; destruct H end.

Lemma trees_clean :
  (forall e, exp_ok D e = true -> clean [exp_t e]) /\
  (forall es, exps_ok D es = true -> clean (exps_t es)) /\
  (forall a, args_ok D a = true -> clean [args_t a]) /\
  (forall fs, fields_ok D fs = true -> clean (fields_t fs)) /\
  (forall f, field_ok D f = true -> clean [field_t f]) /\
  (forall s, stat_ok D s = true -> clean [stat_t s]) /\
  (forall t, iftail_ok D t = true -> clean (iftail_t t)) /\
  (forall b, block_ok D b = true -> clean (block_t b)).
Proof.
  apply lua_ind; intros; match goal with H : _ = true |- _ => cbn [exp_ok exps_ok args_ok fields_ok field_ok stat_ok iftail_ok block_ok] in H end; bs;
    repeat match goal with H : ?x = true -> clean _, G : ?x = true |- _ => specialize (H G) end;
    cbn [exp_t exps_t args_t fields_t field_t stat_t iftail_t block_t app]; unfold name_ref_t, name_t, label_delim_t, semi_t.
  all: try match goal with |- context [if ?b then [PTok KSemicolon] else []] => destruct b end.
  all: cl; try apply names_clean; try apply params_clean; try apply fname_clean.
  - split; [|discriminate]. intros _. exists e. auto.
  - split; [discriminate|]. intros _. exists ts, es. auto.
Qed.
End Dialect.
