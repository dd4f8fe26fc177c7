(** AstNodes.v — the accessors of crates/syntax/src/ast/generated/nodes.rs, one definition per method,
    named by type and method. [e] is the node wrapped by the typed node. *)
From Verif Require Import Base SyntaxKind Tree Ast.

(** nodes.rs:13-15 *)
Definition Name_ident_token (e : elem) : option elem := ast_token KIdent e.
(** nodes.rs:22-24 *)
Definition NameRef_ident_token (e : elem) : option elem := ast_token KIdent e.
(** nodes.rs:31-33 *)
Definition MultiName_names (e : elem) : list elem := ast_children (is_kind KName) e.
(** nodes.rs:40-42 *)
Definition SourceFile_body (e : elem) : option elem := ast_child (is_kind KBlock) e.
(** nodes.rs:49-51 *)
Definition Block_stmts (e : elem) : list elem := ast_children stmt_can_cast e.
(** nodes.rs:58-60 *)
Definition AssignStmt_eq_token (e : elem) : option elem := ast_token KEq e.
(** nodes.rs:67-69 *)
Definition LocalAssignStmt_local_token (e : elem) : option elem := ast_token KLocalKw e.
(** nodes.rs:70-72 *)
Definition LocalAssignStmt_multi_name (e : elem) : option elem := ast_child (is_kind KMultiName) e.
(** nodes.rs:73-75 *)
Definition LocalAssignStmt_eq_token (e : elem) : option elem := ast_token KEq e.
(** nodes.rs:76-78 *)
Definition LocalAssignStmt_multival_expr (e : elem) : option elem := ast_child (is_kind KMultivalExpr) e.
(** nodes.rs:85-87 *)
Definition LocalFunctionDefStmt_local_token (e : elem) : option elem := ast_token KLocalKw e.
(** nodes.rs:88-90 *)
Definition LocalFunctionDefStmt_function_token (e : elem) : option elem := ast_token KFunctionKw e.
(** nodes.rs:91-93 *)
Definition LocalFunctionDefStmt_name (e : elem) : option elem := ast_child (is_kind KName) e.
(** nodes.rs:94-96 *)
Definition LocalFunctionDefStmt_param_list (e : elem) : option elem := ast_child (is_kind KParamList) e.
(** nodes.rs:97-99 *)
Definition LocalFunctionDefStmt_body (e : elem) : option elem := ast_child (is_kind KBlock) e.
(** nodes.rs:100-102 *)
Definition LocalFunctionDefStmt_end_token (e : elem) : option elem := ast_token KEndKw e.
(** nodes.rs:109-111 *)
Definition FunctionDefStmt_function_token (e : elem) : option elem := ast_token KFunctionKw e.
(** nodes.rs:112-114 *)
Definition FunctionDefStmt_function_def_content (e : elem) : option elem := ast_child fn_content_can_cast e.
(** nodes.rs:115-117 *)
Definition FunctionDefStmt_param_list (e : elem) : option elem := ast_child (is_kind KParamList) e.
(** nodes.rs:118-120 *)
Definition FunctionDefStmt_body (e : elem) : option elem := ast_child (is_kind KBlock) e.
(** nodes.rs:121-123 *)
Definition FunctionDefStmt_end_token (e : elem) : option elem := ast_token KEndKw e.
(** nodes.rs:130-132 *)
Definition ForStmt_for_token (e : elem) : option elem := ast_token KForKw e.
(** nodes.rs:133-135 *)
Definition ForStmt_content (e : elem) : option elem := ast_child for_content_can_cast e.
(** nodes.rs:136-138 *)
Definition ForStmt_do_token (e : elem) : option elem := ast_token KDoKw e.
(** nodes.rs:139-141 *)
Definition ForStmt_block (e : elem) : option elem := ast_child (is_kind KBlock) e.
(** nodes.rs:142-144 *)
Definition ForStmt_end_token (e : elem) : option elem := ast_token KEndKw e.
(** nodes.rs:151-153 *)
Definition IfStmt_if_token (e : elem) : option elem := ast_token KIfKw e.
(** nodes.rs:154-156 *)
Definition IfStmt_cond (e : elem) : option elem := ast_child expr_can_cast e.
(** nodes.rs:157-159 *)
Definition IfStmt_then_token (e : elem) : option elem := ast_token KThenKw e.
(** nodes.rs:160-162 *)
Definition IfStmt_block (e : elem) : option elem := ast_child (is_kind KBlock) e.
(** nodes.rs:163-165 *)
Definition IfStmt_else_branch (e : elem) : option elem := ast_child (is_kind KElseBranch) e.
(** nodes.rs:166-168 *)
Definition IfStmt_else_if_branch (e : elem) : option elem := ast_child (is_kind KElseIfBranch) e.
(** nodes.rs:169-171 *)
Definition IfStmt_end_token (e : elem) : option elem := ast_token KEndKw e.
(** nodes.rs:178-180 *)
Definition ReturnStmt_return_token (e : elem) : option elem := ast_token KReturnKw e.
(** nodes.rs:181-183 *)
Definition ReturnStmt_expr (e : elem) : option elem := ast_child expr_can_cast e.
(** nodes.rs:190-192 *)
Definition WhileStmt_while_token (e : elem) : option elem := ast_token KWhileKw e.
(** nodes.rs:193-195 *)
Definition WhileStmt_cond (e : elem) : option elem := ast_child expr_can_cast e.
(** nodes.rs:196-198 *)
Definition WhileStmt_do_token (e : elem) : option elem := ast_token KDoKw e.
(** nodes.rs:199-201 *)
Definition WhileStmt_body (e : elem) : option elem := ast_child (is_kind KBlock) e.
(** nodes.rs:202-204 *)
Definition WhileStmt_end_token (e : elem) : option elem := ast_token KEndKw e.
(** nodes.rs:211-213 *)
Definition ExprStmt_multival_expr (e : elem) : option elem := ast_child (is_kind KMultivalExpr) e.
(** nodes.rs:220-222 *)
Definition BreakStmt_break_token (e : elem) : option elem := ast_token KBreakKw e.
(** nodes.rs:229-231 *)
Definition RepeatUntilStmt_repeat_token (e : elem) : option elem := ast_token KRepeatKw e.
(** nodes.rs:232-234 *)
Definition RepeatUntilStmt_block (e : elem) : option elem := ast_child (is_kind KBlock) e.
(** nodes.rs:235-237 *)
Definition RepeatUntilStmt_until_token (e : elem) : option elem := ast_token KUntilKw e.
(** nodes.rs:238-240 *)
Definition RepeatUntilStmt_expr (e : elem) : option elem := ast_child expr_can_cast e.
(** nodes.rs:247-249 *)
Definition LabelStmt_start (e : elem) : option elem := ast_child (is_kind KLabelDelim) e.
(** nodes.rs:250-252 *)
Definition LabelStmt_name (e : elem) : option elem := ast_child (is_kind KName) e.
(** nodes.rs:253-255 *)
Definition LabelStmt_finish (e : elem) : option elem := ast_child (is_kind KLabelDelim) e.
(** nodes.rs:262-264 *)
Definition GotoStmt_goto_token (e : elem) : option elem := ast_token KGotoKw e.
(** nodes.rs:265-267 *)
Definition GotoStmt_name_ref (e : elem) : option elem := ast_child (is_kind KNameRef) e.
(** nodes.rs:274-276 *)
Definition LabelDelim_double_colon_token (e : elem) : option elem := ast_token KDoubleColon e.
(** nodes.rs:283-285 *)
Definition DoStmt_do_token (e : elem) : option elem := ast_token KDoKw e.
(** nodes.rs:286-288 *)
Definition DoStmt_body (e : elem) : option elem := ast_child (is_kind KBlock) e.
(** nodes.rs:289-291 *)
Definition DoStmt_end_token (e : elem) : option elem := ast_token KEndKw e.
(** nodes.rs:298-300 *)
Definition ParamList_l_paren_token (e : elem) : option elem := ast_token KLParen e.
(** nodes.rs:301-303 *)
Definition ParamList_multi_name (e : elem) : option elem := ast_child (is_kind KMultiName) e.
(** nodes.rs:304-306 *)
Definition ParamList_triple_dot_token (e : elem) : option elem := ast_token KTripleDot e.
(** nodes.rs:307-309 *)
Definition ParamList_r_paren_token (e : elem) : option elem := ast_token KRParen e.
(** nodes.rs:316-318 *)
Definition FunctionMethod_index_path (e : elem) : option elem := ast_child (is_kind KIndexPath) e.
(** nodes.rs:319-321 *)
Definition FunctionMethod_colon_token (e : elem) : option elem := ast_token KColon e.
(** nodes.rs:322-324 *)
Definition FunctionMethod_name (e : elem) : option elem := ast_child (is_kind KName) e.
(** nodes.rs:331-333 *)
Definition FunctionStatic_index_path (e : elem) : option elem := ast_child (is_kind KIndexPath) e.
(** nodes.rs:334-336 *)
Definition FunctionStatic_dot_token (e : elem) : option elem := ast_token KDot e.
(** nodes.rs:337-339 *)
Definition FunctionStatic_name (e : elem) : option elem := ast_child (is_kind KName) e.
(** nodes.rs:346-348 *)
Definition IndexPath_name_refs (e : elem) : list elem := ast_children (is_kind KNameRef) e.
(** nodes.rs:355-357 *)
Definition MultivalExpr_exprs (e : elem) : list elem := ast_children expr_can_cast e.
(** nodes.rs:364-366 *)
Definition ElseBranch_else_token (e : elem) : option elem := ast_token KElseKw e.
(** nodes.rs:367-369 *)
Definition ElseBranch_block (e : elem) : option elem := ast_child (is_kind KBlock) e.
(** nodes.rs:376-378 *)
Definition ElseIfBranch_elseif_token (e : elem) : option elem := ast_token KElseifKw e.
(** nodes.rs:379-381 *)
Definition ElseIfBranch_cond (e : elem) : option elem := ast_child expr_can_cast e.
(** nodes.rs:382-384 *)
Definition ElseIfBranch_then_token (e : elem) : option elem := ast_token KThenKw e.
(** nodes.rs:385-387 *)
Definition ElseIfBranch_block (e : elem) : option elem := ast_child (is_kind KBlock) e.
(** nodes.rs:388-390 *)
Definition ElseIfBranch_else_if_branch (e : elem) : option elem := ast_child (is_kind KElseIfBranch) e.
(** nodes.rs:391-393 *)
Definition ElseIfBranch_else_branch (e : elem) : option elem := ast_child (is_kind KElseBranch) e.
(** nodes.rs:400-402 *)
Definition NumericFor_name (e : elem) : option elem := ast_child (is_kind KName) e.
(** nodes.rs:403-405 *)
Definition NumericFor_eq_token (e : elem) : option elem := ast_token KEq e.
(** nodes.rs:406-408 *)
Definition NumericFor_expr (e : elem) : option elem := ast_child (is_kind KMultivalExpr) e.
(** nodes.rs:415-417 *)
Definition GenericFor_multi_name (e : elem) : option elem := ast_child (is_kind KMultiName) e.
(** nodes.rs:418-420 *)
Definition GenericFor_in_token (e : elem) : option elem := ast_token KInKw e.
(** nodes.rs:421-423 *)
Definition GenericFor_expr (e : elem) : option elem := ast_child (is_kind KMultivalExpr) e.
(** nodes.rs:430-432 *)
Definition Literal_number_token (e : elem) : option elem := ast_token KNumber e.
(** nodes.rs:433-435 *)
Definition Literal_str_token (e : elem) : option elem := ast_token KStr e.
(** nodes.rs:436-438 *)
Definition Literal_true_token (e : elem) : option elem := ast_token KTrueKw e.
(** nodes.rs:439-441 *)
Definition Literal_false_token (e : elem) : option elem := ast_token KFalseKw e.
(** nodes.rs:448-450 *)
Definition TableExpr_l_curly_token (e : elem) : option elem := ast_token KLBrace e.
(** nodes.rs:451-453 *)
Definition TableExpr_table_contents (e : elem) : option elem := ast_child table_content_can_cast e.
(** nodes.rs:454-456 *)
Definition TableExpr_r_curly_token (e : elem) : option elem := ast_token KRBrace e.
(** nodes.rs:468-470 *)
Definition PrefixExpr_expr (e : elem) : option elem := ast_child expr_can_cast e.
(** nodes.rs:477-479 *)
Definition IndexExpr_base (e : elem) : option elem := ast_child expr_can_cast e.
(** nodes.rs:480-482 *)
Definition IndexExpr_index (e : elem) : option elem := ast_child (is_kind KIndex) e.
(** nodes.rs:489-491 *)
Definition DotExpr_expr (e : elem) : option elem := ast_child expr_can_cast e.
(** nodes.rs:492-494 *)
Definition DotExpr_dot_token (e : elem) : option elem := ast_token KDot e.
(** nodes.rs:495-497 *)
Definition DotExpr_ident_token (e : elem) : option elem := ast_token KIdent e.
(** nodes.rs:504-506 *)
Definition FunctionExpr_function_token (e : elem) : option elem := ast_token KFunctionKw e.
(** nodes.rs:507-509 *)
Definition FunctionExpr_params (e : elem) : option elem := ast_child (is_kind KParamList) e.
(** nodes.rs:510-512 *)
Definition FunctionExpr_body (e : elem) : option elem := ast_child (is_kind KBlock) e.
(** nodes.rs:513-515 *)
Definition FunctionExpr_end_token (e : elem) : option elem := ast_token KEndKw e.
(** nodes.rs:522-524 *)
Definition CallExpr_fun (e : elem) : option elem := ast_child expr_can_cast e.
(** nodes.rs:525-527 *)
Definition CallExpr_call_args (e : elem) : option elem := ast_child (is_kind KCallArgs) e.
(** nodes.rs:534-536 *)
Definition MethodCallExpr_fun (e : elem) : option elem := ast_child expr_can_cast e.
(** nodes.rs:537-539 *)
Definition MethodCallExpr_colon_token (e : elem) : option elem := ast_token KColon e.
(** nodes.rs:540-542 *)
Definition MethodCallExpr_name_ref (e : elem) : option elem := ast_child (is_kind KNameRef) e.
(** nodes.rs:543-545 *)
Definition MethodCallExpr_call_args (e : elem) : option elem := ast_child (is_kind KCallArgs) e.
(** nodes.rs:552-554 *)
Definition CallArgs_arg_list (e : elem) : option elem := ast_child (is_kind KArgList) e.
(** nodes.rs:555-557 *)
Definition CallArgs_table_expr (e : elem) : option elem := ast_child (is_kind KTableExpr) e.
(** nodes.rs:558-560 *)
Definition CallArgs_str_token (e : elem) : option elem := ast_token KStr e.
(** nodes.rs:567-569 *)
Definition ArgList_l_paren_token (e : elem) : option elem := ast_token KLParen e.
(** nodes.rs:570-572 *)
Definition ArgList_args (e : elem) : list elem := ast_children expr_can_cast e.
(** nodes.rs:573-575 *)
Definition ArgList_triple_dot_token (e : elem) : option elem := ast_token KTripleDot e.
(** nodes.rs:576-578 *)
Definition ArgList_r_paren_token (e : elem) : option elem := ast_token KRParen e.
(** nodes.rs:585-587 *)
Definition TableSep_semicolon_token (e : elem) : option elem := ast_token KSemicolon e.
(** nodes.rs:594-596 *)
Definition ParenExpr_l_paren_token (e : elem) : option elem := ast_token KLParen e.
(** nodes.rs:597-599 *)
Definition ParenExpr_expr (e : elem) : option elem := ast_child expr_can_cast e.
(** nodes.rs:600-602 *)
Definition ParenExpr_r_paren_token (e : elem) : option elem := ast_token KRParen e.
(** nodes.rs:609-611 *)
Definition KeyValue_key (e : elem) : option elem := ast_child table_key_can_cast e.
(** nodes.rs:612-614 *)
Definition KeyValue_value (e : elem) : option elem := ast_child expr_can_cast e.
(** nodes.rs:621-623 *)
Definition PositionalValue_expr (e : elem) : option elem := ast_child expr_can_cast e.
(** nodes.rs:630-632 *)
Definition Index_l_brack_token (e : elem) : option elem := ast_token KLBracket e.
(** nodes.rs:633-635 *)
Definition Index_expr (e : elem) : option elem := ast_child expr_can_cast e.
(** nodes.rs:636-638 *)
Definition Index_r_brack_token (e : elem) : option elem := ast_token KRBracket e.
(** nodes.rs:645-647 *)
Definition IdentKey_ident_token (e : elem) : option elem := ast_token KIdent e.
