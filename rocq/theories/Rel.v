(** * Rel: trees that agree up to positions and marks (proofs). *)
From Verif Require Import Base Punct Token Ast SpecTouch.
Set Implicit Arguments.

Inductive orel {A B} (R : A -> B -> Prop) : option A -> option B -> Prop :=
| or_none : orel R None None
| or_some : forall a b, R a b -> orel R (Some a) (Some b).

Definition cong1 {T0 T : Type} (c : T0 -> T) {a0 b0 : T0} (e0 : a0 = b0) : c a0 = c b0 :=
  match e0 in _ = b return c a0 = c b with eq_refl => eq_refl end.
Definition cong2 {T0 T1 T : Type} (c : T0 -> T1 -> T) {a0 b0 : T0} {a1 b1 : T1} (e0 : a0 = b0) (e1 : a1 = b1) : c a0 a1 = c b0 b1 :=
  match e1 in _ = b return c a0 a1 = c b0 b with eq_refl => match e0 in _ = b return c a0 a1 = c b a1 with eq_refl => eq_refl end end.
Definition cong3 {T0 T1 T2 T : Type} (c : T0 -> T1 -> T2 -> T) {a0 b0 : T0} {a1 b1 : T1} {a2 b2 : T2} (e0 : a0 = b0) (e1 : a1 = b1) (e2 : a2 = b2) : c a0 a1 a2 = c b0 b1 b2 :=
  match e2 in _ = b return c a0 a1 a2 = c b0 b1 b with eq_refl => match e1 in _ = b return c a0 a1 a2 = c b0 b a2 with eq_refl => match e0 in _ = b return c a0 a1 a2 = c b a1 a2 with eq_refl => eq_refl end end end.
Definition cong4 {T0 T1 T2 T3 T : Type} (c : T0 -> T1 -> T2 -> T3 -> T) {a0 b0 : T0} {a1 b1 : T1} {a2 b2 : T2} {a3 b3 : T3} (e0 : a0 = b0) (e1 : a1 = b1) (e2 : a2 = b2) (e3 : a3 = b3) : c a0 a1 a2 a3 = c b0 b1 b2 b3 :=
  match e3 in _ = b return c a0 a1 a2 a3 = c b0 b1 b2 b with eq_refl => match e2 in _ = b return c a0 a1 a2 a3 = c b0 b1 b a3 with eq_refl => match e1 in _ = b return c a0 a1 a2 a3 = c b0 b a2 a3 with eq_refl => match e0 in _ = b return c a0 a1 a2 a3 = c b a1 a2 a3 with eq_refl => eq_refl end end end end.
Definition cong5 {T0 T1 T2 T3 T4 T : Type} (c : T0 -> T1 -> T2 -> T3 -> T4 -> T) {a0 b0 : T0} {a1 b1 : T1} {a2 b2 : T2} {a3 b3 : T3} {a4 b4 : T4} (e0 : a0 = b0) (e1 : a1 = b1) (e2 : a2 = b2) (e3 : a3 = b3) (e4 : a4 = b4) : c a0 a1 a2 a3 a4 = c b0 b1 b2 b3 b4 :=
  match e4 in _ = b return c a0 a1 a2 a3 a4 = c b0 b1 b2 b3 b with eq_refl => match e3 in _ = b return c a0 a1 a2 a3 a4 = c b0 b1 b2 b a4 with eq_refl => match e2 in _ = b return c a0 a1 a2 a3 a4 = c b0 b1 b a3 a4 with eq_refl => match e1 in _ = b return c a0 a1 a2 a3 a4 = c b0 b a2 a3 a4 with eq_refl => match e0 in _ = b return c a0 a1 a2 a3 a4 = c b a1 a2 a3 a4 with eq_refl => eq_refl end end end end end.
Definition cong6 {T0 T1 T2 T3 T4 T5 T : Type} (c : T0 -> T1 -> T2 -> T3 -> T4 -> T5 -> T) {a0 b0 : T0} {a1 b1 : T1} {a2 b2 : T2} {a3 b3 : T3} {a4 b4 : T4} {a5 b5 : T5} (e0 : a0 = b0) (e1 : a1 = b1) (e2 : a2 = b2) (e3 : a3 = b3) (e4 : a4 = b4) (e5 : a5 = b5) : c a0 a1 a2 a3 a4 a5 = c b0 b1 b2 b3 b4 b5 :=
  match e5 in _ = b return c a0 a1 a2 a3 a4 a5 = c b0 b1 b2 b3 b4 b with eq_refl => match e4 in _ = b return c a0 a1 a2 a3 a4 a5 = c b0 b1 b2 b3 b a5 with eq_refl => match e3 in _ = b return c a0 a1 a2 a3 a4 a5 = c b0 b1 b2 b a4 a5 with eq_refl => match e2 in _ = b return c a0 a1 a2 a3 a4 a5 = c b0 b1 b a3 a4 a5 with eq_refl => match e1 in _ = b return c a0 a1 a2 a3 a4 a5 = c b0 b a2 a3 a4 a5 with eq_refl => match e0 in _ = b return c a0 a1 a2 a3 a4 a5 = c b a1 a2 a3 a4 a5 with eq_refl => eq_refl end end end end end end.

Section Rel.
Context (RS : span -> span -> Prop) (RA : att -> att -> Prop).
Definition r_id (i j : identifier) : Prop := id_name i = id_name j /\ RS (id_span i) (id_span j).
Definition r_lit (i j : literal) : Prop := lit_value i = lit_value j /\ lit_raw i = lit_raw j /\ RS (lit_span i) (lit_span j).
Inductive r_import : import_spec -> import_spec -> Prop :=
| R_ImportDefault : forall a b, r_id a b -> r_import (ImportDefault a) (ImportDefault b)
| R_ImportNamespace : forall a b, r_id a b -> r_import (ImportNamespace a) (ImportNamespace b)
| R_ImportSpec : forall a b a' b', r_id a a' -> r_id b b' -> r_import (ImportSpec a b) (ImportSpec a' b').
Definition r_export (x y : export_spec) : Prop := r_id (ex_exported x) (ex_exported y) /\ r_id (ex_local x) (ex_local y).
Unset Implicit Arguments.
Inductive r_node : node -> node -> Prop :=
| R_ArrayExpression : forall x0 y0 x1 y1 x2 y2, Forall2 (orel r_elem) x0 y0 -> RA x1 y1 -> RS x2 y2 -> r_node (ArrayExpression x0 x1 x2) (ArrayExpression y0 y1 y2)
| R_NArrayPattern : forall x0 y0 x1 y1 x2 y2, Forall2 (orel r_apat) x0 y0 -> RA x1 y1 -> RS x2 y2 -> r_node (NArrayPattern x0 x1 x2) (NArrayPattern y0 y1 y2)
| R_ArrayAssignmentPattern : forall x0 y0 x1 y1 x2 y2, Forall2 (orel r_aapat) x0 y0 -> RA x1 y1 -> RS x2 y2 -> r_node (ArrayAssignmentPattern x0 x1 x2) (ArrayAssignmentPattern y0 y1 y2)
| R_ArrowFunctionExpression : forall x0 y0 x1 y1 x2 y2 x3 x4 x5 x6 y6 x7 y7, orel r_node x0 y0 -> Forall2 r_param x1 y1 -> r_node x2 y2 -> RA x6 y6 -> RS x7 y7 -> r_node (ArrowFunctionExpression x0 x1 x2 x3 x4 x5 x6 x7) (ArrowFunctionExpression y0 y1 y2 x3 x4 x5 y6 y7)
| R_AssignmentExpression : forall x0 x1 y1 x2 y2 x3 y3 x4 y4, r_node x1 y1 -> r_node x2 y2 -> RA x3 y3 -> RS x4 y4 -> r_node (AssignmentExpression x0 x1 x2 x3 x4) (AssignmentExpression x0 y1 y2 y3 y4)
| R_NAssignmentPattern : forall x0 y0 x1 y1 x2 y2, r_bind x0 y0 -> r_node x1 y1 -> RS x2 y2 -> r_node (NAssignmentPattern x0 x1 x2) (NAssignmentPattern y0 y1 y2)
| R_AssignmentRestElement : forall x0 y0 x1 y1, r_node x0 y0 -> RS x1 y1 -> r_node (AssignmentRestElement x0 x1) (AssignmentRestElement y0 y1)
| R_AsyncArrowFunctionExpression : forall x0 y0 x1 y1 x2 y2 x3 x4 x5 x6 y6 x7 y7, orel r_node x0 y0 -> Forall2 r_param x1 y1 -> r_node x2 y2 -> RA x6 y6 -> RS x7 y7 -> r_node (AsyncArrowFunctionExpression x0 x1 x2 x3 x4 x5 x6 x7) (AsyncArrowFunctionExpression y0 y1 y2 x3 x4 x5 y6 y7)
| R_AsyncFunctionExpression : forall x0 y0 x1 y1 x2 y2 x3 x4 x5 x6 y6 x7 y7, orel r_node x0 y0 -> Forall2 r_param x1 y1 -> r_node x2 y2 -> RA x6 y6 -> RS x7 y7 -> r_node (AsyncFunctionExpression x0 x1 x2 x3 x4 x5 x6 x7) (AsyncFunctionExpression y0 y1 y2 x3 x4 x5 y6 y7)
| R_AwaitExpression : forall x0 y0 x1 y1, r_node x0 y0 -> RS x1 y1 -> r_node (AwaitExpression x0 x1) (AwaitExpression y0 y1)
| R_BinaryExpression : forall x0 x1 y1 x2 y2 x3 y3 x4 y4, r_node x1 y1 -> r_node x2 y2 -> RA x3 y3 -> RS x4 y4 -> r_node (BinaryExpression x0 x1 x2 x3 x4) (BinaryExpression x0 y1 y2 y3 y4)
| R_NBindingIdentifier : forall x0 x1 y1, RS x1 y1 -> r_node (NBindingIdentifier x0 x1) (NBindingIdentifier x0 y1)
| R_LogicalExpression : forall x0 x1 y1 x2 y2 x3 y3, r_node x1 y1 -> r_node x2 y2 -> RS x3 y3 -> r_node (LogicalExpression x0 x1 x2 x3) (LogicalExpression x0 y1 y2 y3)
| R_CallExpression : forall x0 y0 x1 y1 x2 y2 x3 y3, r_node x0 y0 -> Forall2 r_arg x1 y1 -> RA x2 y2 -> RS x3 y3 -> r_node (CallExpression x0 x1 x2 x3) (CallExpression y0 y1 y2 y3)
| R_ClassExpression : forall x0 y0 x1 y1 x2 y2 x3 y3 x4 y4, orel r_node x0 y0 -> orel r_node x1 y1 -> Forall2 r_meth x2 y2 -> RA x3 y3 -> RS x4 y4 -> r_node (ClassExpression x0 x1 x2 x3 x4) (ClassExpression y0 y1 y2 y3 y4)
| R_ComputedMemberExpression : forall x0 x1 y1 x2 y2 x3 y3 x4 y4, r_node x1 y1 -> r_node x2 y2 -> RA x3 y3 -> RS x4 y4 -> r_node (ComputedMemberExpression x0 x1 x2 x3 x4) (ComputedMemberExpression x0 y1 y2 y3 y4)
| R_ConditionalExpression : forall x0 y0 x1 y1 x2 y2 x3 y3, r_node x0 y0 -> r_node x1 y1 -> r_node x2 y2 -> RS x3 y3 -> r_node (ConditionalExpression x0 x1 x2 x3) (ConditionalExpression y0 y1 y2 y3)
| R_Identifier : forall x0 x1 y1 x2 y2, RA x1 y1 -> RS x2 y2 -> r_node (Identifier x0 x1 x2) (Identifier x0 y1 y2)
| R_FunctionExpression : forall x0 y0 x1 y1 x2 y2 x3 x4 x5 x6 y6 x7 y7, orel r_node x0 y0 -> Forall2 r_param x1 y1 -> r_node x2 y2 -> RA x6 y6 -> RS x7 y7 -> r_node (FunctionExpression x0 x1 x2 x3 x4 x5 x6 x7) (FunctionExpression y0 y1 y2 x3 x4 x5 y6 y7)
| R_NLiteral : forall x0 x1 x2 y2 x3 y3, RA x2 y2 -> RS x3 y3 -> r_node (NLiteral x0 x1 x2 x3) (NLiteral x0 x1 y2 y3)
| R_NewExpression : forall x0 y0 x1 y1 x2 y2 x3 y3, r_node x0 y0 -> Forall2 r_arg x1 y1 -> RA x2 y2 -> RS x3 y3 -> r_node (NewExpression x0 x1 x2 x3) (NewExpression y0 y1 y2 y3)
| R_ObjectExpression : forall x0 y0 x1 y1 x2 y2, Forall2 r_prop x0 y0 -> RA x1 y1 -> RS x2 y2 -> r_node (ObjectExpression x0 x1 x2) (ObjectExpression y0 y1 y2)
| R_NObjectPattern : forall x0 y0 x1 y1 x2 y2, Forall2 r_opat x0 y0 -> RA x1 y1 -> RS x2 y2 -> r_node (NObjectPattern x0 x1 x2) (NObjectPattern y0 y1 y2)
| R_RegexLiteral : forall x0 x1 x2 x3 y3 x4 y4, RA x3 y3 -> RS x4 y4 -> r_node (RegexLiteral x0 x1 x2 x3 x4) (RegexLiteral x0 x1 x2 y3 y4)
| R_SequenceExpression : forall x0 y0 x1 y1 x2 y2, Forall2 r_node x0 y0 -> RA x1 y1 -> RS x2 y2 -> r_node (SequenceExpression x0 x1 x2) (SequenceExpression y0 y1 y2)
| R_StaticMemberExpression : forall x0 x1 y1 x2 y2 x3 y3 x4 y4, r_node x1 y1 -> r_node x2 y2 -> RA x3 y3 -> RS x4 y4 -> r_node (StaticMemberExpression x0 x1 x2 x3 x4) (StaticMemberExpression x0 y1 y2 y3 y4)
| R_TaggedTemplateExpression : forall x0 y0 x1 x2 y2 x3 y3, r_node x0 y0 -> Forall2 r_node x2 y2 -> RS x3 y3 -> r_node (TaggedTemplateExpression x0 x1 x2 x3) (TaggedTemplateExpression y0 x1 y2 y3)
| R_ThisExpression : forall x0 y0 x1 y1, RA x0 y0 -> RS x1 y1 -> r_node (ThisExpression x0 x1) (ThisExpression y0 y1)
| R_UnaryExpression : forall x0 x1 y1 x2 x3 y3 x4 y4, r_node x1 y1 -> RA x3 y3 -> RS x4 y4 -> r_node (UnaryExpression x0 x1 x2 x3 x4) (UnaryExpression x0 y1 x2 y3 y4)
| R_UpdateExpression : forall x0 x1 y1 x2 x3 y3 x4 y4, r_node x1 y1 -> RA x3 y3 -> RS x4 y4 -> r_node (UpdateExpression x0 x1 x2 x3 x4) (UpdateExpression x0 y1 x2 y3 y4)
| R_YieldExpression : forall x0 y0 x1 x2 y2 x3 y3, orel r_node x0 y0 -> RA x2 y2 -> RS x3 y3 -> r_node (YieldExpression x0 x1 x2 x3) (YieldExpression y0 x1 y2 y3)
| R_ArrowParameterPlaceHolder : forall x0 y0 x1 x2 y2, Forall2 r_param x0 y0 -> RS x2 y2 -> r_node (ArrowParameterPlaceHolder x0 x1 x2) (ArrowParameterPlaceHolder y0 x1 y2)
| R_NRestElement : forall x0 y0 x1 y1, r_bind x0 y0 -> RS x1 y1 -> r_node (NRestElement x0 x1) (NRestElement y0 y1)
| R_NSpreadElement : forall x0 y0 x1 y1, r_node x0 y0 -> RS x1 y1 -> r_node (NSpreadElement x0 x1) (NSpreadElement y0 y1)
| R_Super : forall x0 y0 x1 y1, RA x0 y0 -> RS x1 y1 -> r_node (Super x0 x1) (Super y0 y1)
| R_TemplateLiteral : forall x0 x1 y1 x2 y2 x3 y3, Forall2 r_node x1 y1 -> RA x2 y2 -> RS x3 y3 -> r_node (TemplateLiteral x0 x1 x2 x3) (TemplateLiteral x0 y1 y2 y3)
| R_MetaProperty : forall x0 y0 x1 y1 x2 y2 x3 y3, r_node x0 y0 -> r_node x1 y1 -> RA x2 y2 -> RS x3 y3 -> r_node (MetaProperty x0 x1 x2 x3) (MetaProperty y0 y1 y2 y3)
| R_AsyncFunctionDeclaration : forall x0 y0 x1 y1 x2 y2 x3 x4 x5 x6 y6, orel r_node x0 y0 -> Forall2 r_param x1 y1 -> r_node x2 y2 -> RS x6 y6 -> r_node (AsyncFunctionDeclaration x0 x1 x2 x3 x4 x5 x6) (AsyncFunctionDeclaration y0 y1 y2 x3 x4 x5 y6)
| R_BreakStatement : forall x0 y0 x1 y1, orel r_node x0 y0 -> RS x1 y1 -> r_node (BreakStatement x0 x1) (BreakStatement y0 y1)
| R_ContinueStatement : forall x0 y0 x1 y1, orel r_node x0 y0 -> RS x1 y1 -> r_node (ContinueStatement x0 x1) (ContinueStatement y0 y1)
| R_DebuggerStatement : forall x0 y0, RS x0 y0 -> r_node (DebuggerStatement x0) (DebuggerStatement y0)
| R_DoWhileStatement : forall x0 y0 x1 y1 x2 y2, r_node x0 y0 -> r_node x1 y1 -> RS x2 y2 -> r_node (DoWhileStatement x0 x1 x2) (DoWhileStatement y0 y1 y2)
| R_EmptyStatement : forall x0 y0, RS x0 y0 -> r_node (EmptyStatement x0) (EmptyStatement y0)
| R_ExpressionStatement : forall x0 y0 x1 y1, r_node x0 y0 -> RS x1 y1 -> r_node (ExpressionStatement x0 x1) (ExpressionStatement y0 y1)
| R_Directive : forall x0 y0 x1 x2 y2, r_node x0 y0 -> RS x2 y2 -> r_node (Directive x0 x1 x2) (Directive y0 x1 y2)
| R_ForStatement : forall x0 y0 x1 y1 x2 y2 x3 y3 x4 y4, orel r_node x0 y0 -> orel r_node x1 y1 -> orel r_node x2 y2 -> r_node x3 y3 -> RS x4 y4 -> r_node (ForStatement x0 x1 x2 x3 x4) (ForStatement y0 y1 y2 y3 y4)
| R_ForInStatement : forall x0 y0 x1 y1 x2 y2 x3 x4 y4, r_node x0 y0 -> r_node x1 y1 -> r_node x2 y2 -> RS x4 y4 -> r_node (ForInStatement x0 x1 x2 x3 x4) (ForInStatement y0 y1 y2 x3 y4)
| R_ForOfStatement : forall x0 y0 x1 y1 x2 y2 x3 y3, r_node x0 y0 -> r_node x1 y1 -> r_node x2 y2 -> RS x3 y3 -> r_node (ForOfStatement x0 x1 x2 x3) (ForOfStatement y0 y1 y2 y3)
| R_FunctionDeclaration : forall x0 y0 x1 y1 x2 y2 x3 x4 x5 x6 y6, orel r_node x0 y0 -> Forall2 r_param x1 y1 -> r_node x2 y2 -> RS x6 y6 -> r_node (FunctionDeclaration x0 x1 x2 x3 x4 x5 x6) (FunctionDeclaration y0 y1 y2 x3 x4 x5 y6)
| R_IfStatement : forall x0 y0 x1 y1 x2 y2 x3 y3, r_node x0 y0 -> r_node x1 y1 -> orel r_node x2 y2 -> RS x3 y3 -> r_node (IfStatement x0 x1 x2 x3) (IfStatement y0 y1 y2 y3)
| R_ReturnStatement : forall x0 y0 x1 y1, orel r_node x0 y0 -> RS x1 y1 -> r_node (ReturnStatement x0 x1) (ReturnStatement y0 y1)
| R_SwitchStatement : forall x0 y0 x1 y1 x2 y2, r_node x0 y0 -> Forall2 r_case x1 y1 -> RS x2 y2 -> r_node (SwitchStatement x0 x1 x2) (SwitchStatement y0 y1 y2)
| R_ThrowStatement : forall x0 y0 x1 y1, r_node x0 y0 -> RS x1 y1 -> r_node (ThrowStatement x0 x1) (ThrowStatement y0 y1)
| R_TryStatement : forall x0 y0 x1 y1 x2 y2 x3 y3, r_node x0 y0 -> orel r_catch x1 y1 -> orel r_node x2 y2 -> RS x3 y3 -> r_node (TryStatement x0 x1 x2 x3) (TryStatement y0 y1 y2 y3)
| R_VariableDeclaration : forall x0 y0 x1 x2 y2, Forall2 r_decl x0 y0 -> RS x2 y2 -> r_node (VariableDeclaration x0 x1 x2) (VariableDeclaration y0 x1 y2)
| R_WhileStatement : forall x0 y0 x1 y1 x2 y2, r_node x0 y0 -> r_node x1 y1 -> RS x2 y2 -> r_node (WhileStatement x0 x1 x2) (WhileStatement y0 y1 y2)
| R_WithStatement : forall x0 y0 x1 y1 x2 y2, r_node x0 y0 -> r_node x1 y1 -> RS x2 y2 -> r_node (WithStatement x0 x1 x2) (WithStatement y0 y1 y2)
| R_BlockStatement : forall x0 y0 x1 y1, Forall2 r_node x0 y0 -> RS x1 y1 -> r_node (BlockStatement x0 x1) (BlockStatement y0 y1)
| R_ClassDeclaration : forall x0 y0 x1 y1 x2 y2 x3 y3, orel r_node x0 y0 -> orel r_node x1 y1 -> Forall2 r_meth x2 y2 -> RS x3 y3 -> r_node (ClassDeclaration x0 x1 x2 x3) (ClassDeclaration y0 y1 y2 y3)
| R_ExportAllDeclaration : forall x0 y0 x1 y1, r_lit x0 y0 -> RS x1 y1 -> r_node (ExportAllDeclaration x0 x1) (ExportAllDeclaration y0 y1)
| R_ExportDefaultDeclaration : forall x0 y0 x1 y1, r_node x0 y0 -> RS x1 y1 -> r_node (ExportDefaultDeclaration x0 x1) (ExportDefaultDeclaration y0 y1)
| R_ExportNamedDeclaration : forall x0 y0 x1 y1 x2 y2 x3 y3, orel r_node x0 y0 -> Forall2 r_export x1 y1 -> orel r_lit x2 y2 -> RS x3 y3 -> r_node (ExportNamedDeclaration x0 x1 x2 x3) (ExportNamedDeclaration y0 y1 y2 y3)
| R_ImportDeclaration : forall x0 y0 x1 y1 x2 y2, Forall2 r_import x0 y0 -> r_lit x1 y1 -> RS x2 y2 -> r_node (ImportDeclaration x0 x1 x2) (ImportDeclaration y0 y1 y2)
| R_NImportDefaultSpecifier : forall x0 y0 x1 y1, r_id x0 y0 -> RS x1 y1 -> r_node (NImportDefaultSpecifier x0 x1) (NImportDefaultSpecifier y0 y1)
| R_NImportNamespaceSpecifier : forall x0 y0 x1 y1, r_id x0 y0 -> RS x1 y1 -> r_node (NImportNamespaceSpecifier x0 x1) (NImportNamespaceSpecifier y0 y1)
| R_NImportSpecifier : forall x0 y0 x1 y1 x2 y2, r_id x0 y0 -> r_id x1 y1 -> RS x2 y2 -> r_node (NImportSpecifier x0 x1 x2) (NImportSpecifier y0 y1 y2)
| R_LabeledStatement : forall x0 y0 x1 y1 x2 y2, r_id x0 y0 -> r_node x1 y1 -> RS x2 y2 -> r_node (LabeledStatement x0 x1 x2) (LabeledStatement y0 y1 y2)
| R_Module : forall x0 y0 x1 x2 y2, Forall2 r_node x0 y0 -> RS x2 y2 -> r_node (Module x0 x1 x2) (Module y0 x1 y2)
| R_Program : forall x0 y0 x1 x2 y2, Forall2 r_node x0 y0 -> RS x2 y2 -> r_node (Program x0 x1 x2) (Program y0 x1 y2)
with r_elem : arr_elem -> arr_elem -> Prop :=
| R_AE_Expr : forall x0 y0, r_node x0 y0 -> r_elem (AE_Expr x0) (AE_Expr y0)
| R_AE_Spread : forall x0 y0 x1 y1, r_node x0 y0 -> RS x1 y1 -> r_elem (AE_Spread x0 x1) (AE_Spread y0 y1)
with r_bind : binding -> binding -> Prop :=
| R_B_Id : forall x0 x1 y1, RS x1 y1 -> r_bind (B_Id x0 x1) (B_Id x0 y1)
| R_B_Array : forall x0 y0 x1 y1, Forall2 (orel r_apat) x0 y0 -> RS x1 y1 -> r_bind (B_Array x0 x1) (B_Array y0 y1)
| R_B_Object : forall x0 y0 x1 y1, Forall2 r_opat x0 y0 -> RS x1 y1 -> r_bind (B_Object x0 x1) (B_Object y0 y1)
| R_B_Expr : forall x0 y0, r_node x0 y0 -> r_bind (B_Expr x0) (B_Expr y0)
with r_apat : arr_pat -> arr_pat -> Prop :=
| R_AP_Assign : forall x0 y0 x1 y1, r_bind x0 y0 -> r_node x1 y1 -> r_apat (AP_Assign x0 x1) (AP_Assign y0 y1)
| R_AP_Id : forall x0, r_apat (AP_Id x0) (AP_Id x0)
| R_AP_Array : forall x0 y0, Forall2 (orel r_apat) x0 y0 -> r_apat (AP_Array x0) (AP_Array y0)
| R_AP_Object : forall x0 y0, Forall2 r_opat x0 y0 -> r_apat (AP_Object x0) (AP_Object y0)
| R_AP_Rest : forall x0 y0, r_bind x0 y0 -> r_apat (AP_Rest x0) (AP_Rest y0)
with r_aapat : arr_apat -> arr_apat -> Prop :=
| R_AA_Expr : forall x0 y0, r_node x0 y0 -> r_aapat (AA_Expr x0) (AA_Expr y0)
| R_AA_Rest : forall x0 y0, r_bind x0 y0 -> r_aapat (AA_Rest x0) (AA_Rest y0)
with r_key : prop_key -> prop_key -> Prop :=
| R_PK_Id : forall x0 y0, r_id x0 y0 -> r_key (PK_Id x0) (PK_Id y0)
| R_PK_Lit : forall x0 y0, r_lit x0 y0 -> r_key (PK_Lit x0) (PK_Lit y0)
| R_PK_Expr : forall x0 y0, r_node x0 y0 -> r_key (PK_Expr x0) (PK_Expr y0)
with r_val : prop_value -> prop_value -> Prop :=
| R_PV_Assign : forall x0 y0 x1 y1, r_bind x0 y0 -> r_node x1 y1 -> r_val (PV_Assign x0 x1) (PV_Assign y0 y1)
| R_PV_AsyncFn : forall x0 y0 x1 y1 x2 y2 x3 x4 x5, orel r_node x0 y0 -> Forall2 r_param x1 y1 -> r_node x2 y2 -> r_val (PV_AsyncFn x0 x1 x2 x3 x4 x5) (PV_AsyncFn y0 y1 y2 x3 x4 x5)
| R_PV_BindId : forall x0 x1 y1, RS x1 y1 -> r_val (PV_BindId x0 x1) (PV_BindId x0 y1)
| R_PV_ArrayPat : forall x0 y0, Forall2 (orel r_apat) x0 y0 -> r_val (PV_ArrayPat x0) (PV_ArrayPat y0)
| R_PV_ObjectPat : forall x0 y0, Forall2 r_opat x0 y0 -> r_val (PV_ObjectPat x0) (PV_ObjectPat y0)
| R_PV_Fn : forall x0 y0, r_fn x0 y0 -> r_val (PV_Fn x0) (PV_Fn y0)
| R_PV_Expr : forall x0 y0, r_node x0 y0 -> r_val (PV_Expr x0) (PV_Expr y0)
with r_opat : obj_pat -> obj_pat -> Prop :=
| R_OP_Prop : forall x0 y0 x1 x2 y2 x3 x4 x5, r_key x0 y0 -> orel r_val x2 y2 -> r_opat (OP_Prop x0 x1 x2 x3 x4 x5) (OP_Prop y0 x1 y2 x3 x4 x5)
| R_OP_Rest : forall x0 y0, r_bind x0 y0 -> r_opat (OP_Rest x0) (OP_Rest y0)
with r_param : func_param -> func_param -> Prop :=
| R_FP_Assign : forall x0 y0 x1 y1, r_bind x0 y0 -> r_node x1 y1 -> r_param (FP_Assign x0 x1) (FP_Assign y0 y1)
| R_FP_Id : forall x0, r_param (FP_Id x0) (FP_Id x0)
| R_FP_Array : forall x0 y0, Forall2 (orel r_apat) x0 y0 -> r_param (FP_Array x0) (FP_Array y0)
| R_FP_Object : forall x0 y0, Forall2 r_opat x0 y0 -> r_param (FP_Object x0) (FP_Object y0)
| R_FP_Rest : forall x0 y0, r_bind x0 y0 -> r_param (FP_Rest x0) (FP_Rest y0)
with r_arg : arg_elem -> arg_elem -> Prop :=
| R_AR_Expr : forall x0 y0, r_node x0 y0 -> r_arg (AR_Expr x0) (AR_Expr y0)
| R_AR_Spread : forall x0 y0 x1 y1, r_node x0 y0 -> RS x1 y1 -> r_arg (AR_Spread x0 x1) (AR_Spread y0 y1)
with r_prop : obj_prop -> obj_prop -> Prop :=
| R_OE_Prop : forall x0 y0 x1 x2 y2 x3 x4 x5 x6 y6, r_key x0 y0 -> orel r_val x2 y2 -> RS x6 y6 -> r_prop (OE_Prop x0 x1 x2 x3 x4 x5 x6) (OE_Prop y0 x1 y2 x3 x4 x5 y6)
| R_OE_Spread : forall x0 y0 x1 y1, r_node x0 y0 -> RS x1 y1 -> r_prop (OE_Spread x0 x1) (OE_Spread y0 y1)
with r_meth : method_def -> method_def -> Prop :=
| R_MethodDef : forall x0 y0 x1 x2 y2 x3 x4, r_node x0 y0 -> orel r_fn x2 y2 -> r_meth (MethodDef x0 x1 x2 x3 x4) (MethodDef y0 x1 y2 x3 x4)
with r_fn : fn_expr -> fn_expr -> Prop :=
| R_FnExpr : forall x0 y0 x1 y1 x2 y2 x3 x4 x5, orel r_node x0 y0 -> Forall2 r_param x1 y1 -> r_node x2 y2 -> r_fn (FnExpr x0 x1 x2 x3 x4 x5) (FnExpr y0 y1 y2 x3 x4 x5)
with r_case : switch_case -> switch_case -> Prop :=
| R_SwitchCase : forall x0 y0 x1 y1, orel r_node x0 y0 -> Forall2 r_node x1 y1 -> r_case (SwitchCase x0 x1) (SwitchCase y0 y1)
with r_decl : var_declarator -> var_declarator -> Prop :=
| R_VarDeclarator : forall x0 y0 x1 y1, r_bind x0 y0 -> orel r_node x1 y1 -> r_decl (VarDeclarator x0 x1) (VarDeclarator y0 y1)
with r_catch : catch_clause -> catch_clause -> Prop :=
| R_CatchClause : forall x0 y0 x1 y1, orel r_bind x0 y0 -> r_node x1 y1 -> r_catch (CatchClause x0 x1) (CatchClause y0 y1).
Set Implicit Arguments.

(** ** Related trees are equal after touching *)
Section Maps.
Context (A B C : Type) (R : A -> B -> Prop) (f : A -> C) (g : B -> C) (H : forall a b, R a b -> f a = g b).
Fixpoint all_map l l' (F : Forall2 R l l') : map f l = map g l' :=
  match F in Forall2 _ l l' return map f l = map g l' with
  | Forall2_nil _ => eq_refl
  | Forall2_cons _ _ Hx Hl => f_equal2 cons (H Hx) (all_map Hl)
  end.
Definition opt_map o o' (F : orel R o o') : option_map f o = option_map g o' :=
  match F in orel _ o o' return option_map f o = option_map g o' with
  | or_none _ => eq_refl
  | or_some _ _ _ Hx => f_equal Some (H Hx)
  end.
End Maps.
Context (f f' : span -> span) (g g' : att -> att).
Hypothesis Hf : forall a b, RS a b -> f a = f' b.
Hypothesis Hg : forall a b, RA a b -> g a = g' b.
Lemma touch_id_eq a b : r_id a b -> touch_id f a = touch_id f' b.
Proof. destruct a, b; intros [H1 H2]; cbn in *; unfold touch_id; cbn; rewrite H1, (Hf H2); reflexivity. Qed.
Lemma touch_lit_eq a b : r_lit a b -> touch_lit f a = touch_lit f' b.
Proof. destruct a, b; intros (H1 & H2 & H3); cbn in *; unfold touch_lit; cbn; rewrite H1, H2, (Hf H3); reflexivity. Qed.
Lemma touch_import_eq a b : r_import a b -> touch_import f a = touch_import f' b.
Proof. intros [? ? H|? ? H|? ? ? ? H H']; cbn; rewrite ?(touch_id_eq H), ?(touch_id_eq H'); reflexivity. Qed.
Lemma touch_export_eq a b : r_export a b -> touch_export f a = touch_export f' b.
Proof. intros [H H']; unfold touch_export; rewrite (touch_id_eq H), (touch_id_eq H'); reflexivity. Qed.

Fixpoint eq_node x y (H : r_node x y) {struct H} : touch_node f g x = touch_node f' g' y :=
  match H in r_node x y return touch_node f g x = touch_node f' g' y with
  | R_ArrayExpression _ _ _ _ _ _ h0 h1 h2 => cong3 (fun a0 a1 a2 => ArrayExpression a0 a1 a2) (@all_map _ _ _ _ _ _ (@opt_map _ _ _ _ _ _ (@eq_elem)) _ _ h0) (Hg h1) (Hf h2)
  | R_NArrayPattern _ _ _ _ _ _ h0 h1 h2 => cong3 (fun a0 a1 a2 => NArrayPattern a0 a1 a2) (@all_map _ _ _ _ _ _ (@opt_map _ _ _ _ _ _ (@eq_apat)) _ _ h0) (Hg h1) (Hf h2)
  | R_ArrayAssignmentPattern _ _ _ _ _ _ h0 h1 h2 => cong3 (fun a0 a1 a2 => ArrayAssignmentPattern a0 a1 a2) (@all_map _ _ _ _ _ _ (@opt_map _ _ _ _ _ _ (@eq_aapat)) _ _ h0) (Hg h1) (Hf h2)
  | R_ArrowFunctionExpression _ _ _ _ _ _ z3 z4 z5 _ _ _ _ h0 h1 h2 h6 h7 => cong5 (fun a0 a1 a2 a6 a7 => ArrowFunctionExpression a0 a1 a2 z3 z4 z5 a6 a7) (@opt_map _ _ _ _ _ _ (@eq_node) _ _ h0) (@all_map _ _ _ _ _ _ (@eq_param) _ _ h1) ((@eq_node) _ _ h2) (Hg h6) (Hf h7)
  | R_AssignmentExpression z0 _ _ _ _ _ _ _ _ h1 h2 h3 h4 => cong4 (fun a1 a2 a3 a4 => AssignmentExpression z0 a1 a2 a3 a4) ((@eq_node) _ _ h1) ((@eq_node) _ _ h2) (Hg h3) (Hf h4)
  | R_NAssignmentPattern _ _ _ _ _ _ h0 h1 h2 => cong3 (fun a0 a1 a2 => NAssignmentPattern a0 a1 a2) ((@eq_bind) _ _ h0) ((@eq_node) _ _ h1) (Hf h2)
  | R_AssignmentRestElement _ _ _ _ h0 h1 => cong2 (fun a0 a1 => AssignmentRestElement a0 a1) ((@eq_node) _ _ h0) (Hf h1)
  | R_AsyncArrowFunctionExpression _ _ _ _ _ _ z3 z4 z5 _ _ _ _ h0 h1 h2 h6 h7 => cong5 (fun a0 a1 a2 a6 a7 => AsyncArrowFunctionExpression a0 a1 a2 z3 z4 z5 a6 a7) (@opt_map _ _ _ _ _ _ (@eq_node) _ _ h0) (@all_map _ _ _ _ _ _ (@eq_param) _ _ h1) ((@eq_node) _ _ h2) (Hg h6) (Hf h7)
  | R_AsyncFunctionExpression _ _ _ _ _ _ z3 z4 z5 _ _ _ _ h0 h1 h2 h6 h7 => cong5 (fun a0 a1 a2 a6 a7 => AsyncFunctionExpression a0 a1 a2 z3 z4 z5 a6 a7) (@opt_map _ _ _ _ _ _ (@eq_node) _ _ h0) (@all_map _ _ _ _ _ _ (@eq_param) _ _ h1) ((@eq_node) _ _ h2) (Hg h6) (Hf h7)
  | R_AwaitExpression _ _ _ _ h0 h1 => cong2 (fun a0 a1 => AwaitExpression a0 a1) ((@eq_node) _ _ h0) (Hf h1)
  | R_BinaryExpression z0 _ _ _ _ _ _ _ _ h1 h2 h3 h4 => cong4 (fun a1 a2 a3 a4 => BinaryExpression z0 a1 a2 a3 a4) ((@eq_node) _ _ h1) ((@eq_node) _ _ h2) (Hg h3) (Hf h4)
  | R_NBindingIdentifier z0 _ _ h1 => cong1 (fun a1 => NBindingIdentifier z0 a1) (Hf h1)
  | R_LogicalExpression z0 _ _ _ _ _ _ h1 h2 h3 => cong3 (fun a1 a2 a3 => LogicalExpression z0 a1 a2 a3) ((@eq_node) _ _ h1) ((@eq_node) _ _ h2) (Hf h3)
  | R_CallExpression _ _ _ _ _ _ _ _ h0 h1 h2 h3 => cong4 (fun a0 a1 a2 a3 => CallExpression a0 a1 a2 a3) ((@eq_node) _ _ h0) (@all_map _ _ _ _ _ _ (@eq_arg) _ _ h1) (Hg h2) (Hf h3)
  | R_ClassExpression _ _ _ _ _ _ _ _ _ _ h0 h1 h2 h3 h4 => cong5 (fun a0 a1 a2 a3 a4 => ClassExpression a0 a1 a2 a3 a4) (@opt_map _ _ _ _ _ _ (@eq_node) _ _ h0) (@opt_map _ _ _ _ _ _ (@eq_node) _ _ h1) (@all_map _ _ _ _ _ _ (@eq_meth) _ _ h2) (Hg h3) (Hf h4)
  | R_ComputedMemberExpression z0 _ _ _ _ _ _ _ _ h1 h2 h3 h4 => cong4 (fun a1 a2 a3 a4 => ComputedMemberExpression z0 a1 a2 a3 a4) ((@eq_node) _ _ h1) ((@eq_node) _ _ h2) (Hg h3) (Hf h4)
  | R_ConditionalExpression _ _ _ _ _ _ _ _ h0 h1 h2 h3 => cong4 (fun a0 a1 a2 a3 => ConditionalExpression a0 a1 a2 a3) ((@eq_node) _ _ h0) ((@eq_node) _ _ h1) ((@eq_node) _ _ h2) (Hf h3)
  | R_Identifier z0 _ _ _ _ h1 h2 => cong2 (fun a1 a2 => Identifier z0 a1 a2) (Hg h1) (Hf h2)
  | R_FunctionExpression _ _ _ _ _ _ z3 z4 z5 _ _ _ _ h0 h1 h2 h6 h7 => cong5 (fun a0 a1 a2 a6 a7 => FunctionExpression a0 a1 a2 z3 z4 z5 a6 a7) (@opt_map _ _ _ _ _ _ (@eq_node) _ _ h0) (@all_map _ _ _ _ _ _ (@eq_param) _ _ h1) ((@eq_node) _ _ h2) (Hg h6) (Hf h7)
  | R_NLiteral z0 z1 _ _ _ _ h2 h3 => cong2 (fun a2 a3 => NLiteral z0 z1 a2 a3) (Hg h2) (Hf h3)
  | R_NewExpression _ _ _ _ _ _ _ _ h0 h1 h2 h3 => cong4 (fun a0 a1 a2 a3 => NewExpression a0 a1 a2 a3) ((@eq_node) _ _ h0) (@all_map _ _ _ _ _ _ (@eq_arg) _ _ h1) (Hg h2) (Hf h3)
  | R_ObjectExpression _ _ _ _ _ _ h0 h1 h2 => cong3 (fun a0 a1 a2 => ObjectExpression a0 a1 a2) (@all_map _ _ _ _ _ _ (@eq_prop) _ _ h0) (Hg h1) (Hf h2)
  | R_NObjectPattern _ _ _ _ _ _ h0 h1 h2 => cong3 (fun a0 a1 a2 => NObjectPattern a0 a1 a2) (@all_map _ _ _ _ _ _ (@eq_opat) _ _ h0) (Hg h1) (Hf h2)
  | R_RegexLiteral z0 z1 z2 _ _ _ _ h3 h4 => cong2 (fun a3 a4 => RegexLiteral z0 z1 z2 a3 a4) (Hg h3) (Hf h4)
  | R_SequenceExpression _ _ _ _ _ _ h0 h1 h2 => cong3 (fun a0 a1 a2 => SequenceExpression a0 a1 a2) (@all_map _ _ _ _ _ _ (@eq_node) _ _ h0) (Hg h1) (Hf h2)
  | R_StaticMemberExpression z0 _ _ _ _ _ _ _ _ h1 h2 h3 h4 => cong4 (fun a1 a2 a3 a4 => StaticMemberExpression z0 a1 a2 a3 a4) ((@eq_node) _ _ h1) ((@eq_node) _ _ h2) (Hg h3) (Hf h4)
  | R_TaggedTemplateExpression _ _ z1 _ _ _ _ h0 h2 h3 => cong3 (fun a0 a2 a3 => TaggedTemplateExpression a0 z1 a2 a3) ((@eq_node) _ _ h0) (@all_map _ _ _ _ _ _ (@eq_node) _ _ h2) (Hf h3)
  | R_ThisExpression _ _ _ _ h0 h1 => cong2 (fun a0 a1 => ThisExpression a0 a1) (Hg h0) (Hf h1)
  | R_UnaryExpression z0 _ _ z2 _ _ _ _ h1 h3 h4 => cong3 (fun a1 a3 a4 => UnaryExpression z0 a1 z2 a3 a4) ((@eq_node) _ _ h1) (Hg h3) (Hf h4)
  | R_UpdateExpression z0 _ _ z2 _ _ _ _ h1 h3 h4 => cong3 (fun a1 a3 a4 => UpdateExpression z0 a1 z2 a3 a4) ((@eq_node) _ _ h1) (Hg h3) (Hf h4)
  | R_YieldExpression _ _ z1 _ _ _ _ h0 h2 h3 => cong3 (fun a0 a2 a3 => YieldExpression a0 z1 a2 a3) (@opt_map _ _ _ _ _ _ (@eq_node) _ _ h0) (Hg h2) (Hf h3)
  | R_ArrowParameterPlaceHolder _ _ z1 _ _ h0 h2 => cong2 (fun a0 a2 => ArrowParameterPlaceHolder a0 z1 a2) (@all_map _ _ _ _ _ _ (@eq_param) _ _ h0) (Hf h2)
  | R_NRestElement _ _ _ _ h0 h1 => cong2 (fun a0 a1 => NRestElement a0 a1) ((@eq_bind) _ _ h0) (Hf h1)
  | R_NSpreadElement _ _ _ _ h0 h1 => cong2 (fun a0 a1 => NSpreadElement a0 a1) ((@eq_node) _ _ h0) (Hf h1)
  | R_Super _ _ _ _ h0 h1 => cong2 (fun a0 a1 => Super a0 a1) (Hg h0) (Hf h1)
  | R_TemplateLiteral z0 _ _ _ _ _ _ h1 h2 h3 => cong3 (fun a1 a2 a3 => TemplateLiteral z0 a1 a2 a3) (@all_map _ _ _ _ _ _ (@eq_node) _ _ h1) (Hg h2) (Hf h3)
  | R_MetaProperty _ _ _ _ _ _ _ _ h0 h1 h2 h3 => cong4 (fun a0 a1 a2 a3 => MetaProperty a0 a1 a2 a3) ((@eq_node) _ _ h0) ((@eq_node) _ _ h1) (Hg h2) (Hf h3)
  | R_AsyncFunctionDeclaration _ _ _ _ _ _ z3 z4 z5 _ _ h0 h1 h2 h6 => cong4 (fun a0 a1 a2 a6 => AsyncFunctionDeclaration a0 a1 a2 z3 z4 z5 a6) (@opt_map _ _ _ _ _ _ (@eq_node) _ _ h0) (@all_map _ _ _ _ _ _ (@eq_param) _ _ h1) ((@eq_node) _ _ h2) (Hf h6)
  | R_BreakStatement _ _ _ _ h0 h1 => cong2 (fun a0 a1 => BreakStatement a0 a1) (@opt_map _ _ _ _ _ _ (@eq_node) _ _ h0) (Hf h1)
  | R_ContinueStatement _ _ _ _ h0 h1 => cong2 (fun a0 a1 => ContinueStatement a0 a1) (@opt_map _ _ _ _ _ _ (@eq_node) _ _ h0) (Hf h1)
  | R_DebuggerStatement _ _ h0 => cong1 (fun a0 => DebuggerStatement a0) (Hf h0)
  | R_DoWhileStatement _ _ _ _ _ _ h0 h1 h2 => cong3 (fun a0 a1 a2 => DoWhileStatement a0 a1 a2) ((@eq_node) _ _ h0) ((@eq_node) _ _ h1) (Hf h2)
  | R_EmptyStatement _ _ h0 => cong1 (fun a0 => EmptyStatement a0) (Hf h0)
  | R_ExpressionStatement _ _ _ _ h0 h1 => cong2 (fun a0 a1 => ExpressionStatement a0 a1) ((@eq_node) _ _ h0) (Hf h1)
  | R_Directive _ _ z1 _ _ h0 h2 => cong2 (fun a0 a2 => Directive a0 z1 a2) ((@eq_node) _ _ h0) (Hf h2)
  | R_ForStatement _ _ _ _ _ _ _ _ _ _ h0 h1 h2 h3 h4 => cong5 (fun a0 a1 a2 a3 a4 => ForStatement a0 a1 a2 a3 a4) (@opt_map _ _ _ _ _ _ (@eq_node) _ _ h0) (@opt_map _ _ _ _ _ _ (@eq_node) _ _ h1) (@opt_map _ _ _ _ _ _ (@eq_node) _ _ h2) ((@eq_node) _ _ h3) (Hf h4)
  | R_ForInStatement _ _ _ _ _ _ z3 _ _ h0 h1 h2 h4 => cong4 (fun a0 a1 a2 a4 => ForInStatement a0 a1 a2 z3 a4) ((@eq_node) _ _ h0) ((@eq_node) _ _ h1) ((@eq_node) _ _ h2) (Hf h4)
  | R_ForOfStatement _ _ _ _ _ _ _ _ h0 h1 h2 h3 => cong4 (fun a0 a1 a2 a3 => ForOfStatement a0 a1 a2 a3) ((@eq_node) _ _ h0) ((@eq_node) _ _ h1) ((@eq_node) _ _ h2) (Hf h3)
  | R_FunctionDeclaration _ _ _ _ _ _ z3 z4 z5 _ _ h0 h1 h2 h6 => cong4 (fun a0 a1 a2 a6 => FunctionDeclaration a0 a1 a2 z3 z4 z5 a6) (@opt_map _ _ _ _ _ _ (@eq_node) _ _ h0) (@all_map _ _ _ _ _ _ (@eq_param) _ _ h1) ((@eq_node) _ _ h2) (Hf h6)
  | R_IfStatement _ _ _ _ _ _ _ _ h0 h1 h2 h3 => cong4 (fun a0 a1 a2 a3 => IfStatement a0 a1 a2 a3) ((@eq_node) _ _ h0) ((@eq_node) _ _ h1) (@opt_map _ _ _ _ _ _ (@eq_node) _ _ h2) (Hf h3)
  | R_ReturnStatement _ _ _ _ h0 h1 => cong2 (fun a0 a1 => ReturnStatement a0 a1) (@opt_map _ _ _ _ _ _ (@eq_node) _ _ h0) (Hf h1)
  | R_SwitchStatement _ _ _ _ _ _ h0 h1 h2 => cong3 (fun a0 a1 a2 => SwitchStatement a0 a1 a2) ((@eq_node) _ _ h0) (@all_map _ _ _ _ _ _ (@eq_case) _ _ h1) (Hf h2)
  | R_ThrowStatement _ _ _ _ h0 h1 => cong2 (fun a0 a1 => ThrowStatement a0 a1) ((@eq_node) _ _ h0) (Hf h1)
  | R_TryStatement _ _ _ _ _ _ _ _ h0 h1 h2 h3 => cong4 (fun a0 a1 a2 a3 => TryStatement a0 a1 a2 a3) ((@eq_node) _ _ h0) (@opt_map _ _ _ _ _ _ (@eq_catch) _ _ h1) (@opt_map _ _ _ _ _ _ (@eq_node) _ _ h2) (Hf h3)
  | R_VariableDeclaration _ _ z1 _ _ h0 h2 => cong2 (fun a0 a2 => VariableDeclaration a0 z1 a2) (@all_map _ _ _ _ _ _ (@eq_decl) _ _ h0) (Hf h2)
  | R_WhileStatement _ _ _ _ _ _ h0 h1 h2 => cong3 (fun a0 a1 a2 => WhileStatement a0 a1 a2) ((@eq_node) _ _ h0) ((@eq_node) _ _ h1) (Hf h2)
  | R_WithStatement _ _ _ _ _ _ h0 h1 h2 => cong3 (fun a0 a1 a2 => WithStatement a0 a1 a2) ((@eq_node) _ _ h0) ((@eq_node) _ _ h1) (Hf h2)
  | R_BlockStatement _ _ _ _ h0 h1 => cong2 (fun a0 a1 => BlockStatement a0 a1) (@all_map _ _ _ _ _ _ (@eq_node) _ _ h0) (Hf h1)
  | R_ClassDeclaration _ _ _ _ _ _ _ _ h0 h1 h2 h3 => cong4 (fun a0 a1 a2 a3 => ClassDeclaration a0 a1 a2 a3) (@opt_map _ _ _ _ _ _ (@eq_node) _ _ h0) (@opt_map _ _ _ _ _ _ (@eq_node) _ _ h1) (@all_map _ _ _ _ _ _ (@eq_meth) _ _ h2) (Hf h3)
  | R_ExportAllDeclaration _ _ _ _ h0 h1 => cong2 (fun a0 a1 => ExportAllDeclaration a0 a1) ((@touch_lit_eq) _ _ h0) (Hf h1)
  | R_ExportDefaultDeclaration _ _ _ _ h0 h1 => cong2 (fun a0 a1 => ExportDefaultDeclaration a0 a1) ((@eq_node) _ _ h0) (Hf h1)
  | R_ExportNamedDeclaration _ _ _ _ _ _ _ _ h0 h1 h2 h3 => cong4 (fun a0 a1 a2 a3 => ExportNamedDeclaration a0 a1 a2 a3) (@opt_map _ _ _ _ _ _ (@eq_node) _ _ h0) (@all_map _ _ _ _ _ _ (@touch_export_eq) _ _ h1) (@opt_map _ _ _ _ _ _ (@touch_lit_eq) _ _ h2) (Hf h3)
  | R_ImportDeclaration _ _ _ _ _ _ h0 h1 h2 => cong3 (fun a0 a1 a2 => ImportDeclaration a0 a1 a2) (@all_map _ _ _ _ _ _ (@touch_import_eq) _ _ h0) ((@touch_lit_eq) _ _ h1) (Hf h2)
  | R_NImportDefaultSpecifier _ _ _ _ h0 h1 => cong2 (fun a0 a1 => NImportDefaultSpecifier a0 a1) ((@touch_id_eq) _ _ h0) (Hf h1)
  | R_NImportNamespaceSpecifier _ _ _ _ h0 h1 => cong2 (fun a0 a1 => NImportNamespaceSpecifier a0 a1) ((@touch_id_eq) _ _ h0) (Hf h1)
  | R_NImportSpecifier _ _ _ _ _ _ h0 h1 h2 => cong3 (fun a0 a1 a2 => NImportSpecifier a0 a1 a2) ((@touch_id_eq) _ _ h0) ((@touch_id_eq) _ _ h1) (Hf h2)
  | R_LabeledStatement _ _ _ _ _ _ h0 h1 h2 => cong3 (fun a0 a1 a2 => LabeledStatement a0 a1 a2) ((@touch_id_eq) _ _ h0) ((@eq_node) _ _ h1) (Hf h2)
  | R_Module _ _ z1 _ _ h0 h2 => cong2 (fun a0 a2 => Module a0 z1 a2) (@all_map _ _ _ _ _ _ (@eq_node) _ _ h0) (Hf h2)
  | R_Program _ _ z1 _ _ h0 h2 => cong2 (fun a0 a2 => Program a0 z1 a2) (@all_map _ _ _ _ _ _ (@eq_node) _ _ h0) (Hf h2)
  end
with eq_elem x y (H : r_elem x y) {struct H} : touch_elem f g x = touch_elem f' g' y :=
  match H in r_elem x y return touch_elem f g x = touch_elem f' g' y with
  | R_AE_Expr _ _ h0 => cong1 (fun a0 => AE_Expr a0) ((@eq_node) _ _ h0)
  | R_AE_Spread _ _ _ _ h0 h1 => cong2 (fun a0 a1 => AE_Spread a0 a1) ((@eq_node) _ _ h0) (Hf h1)
  end
with eq_bind x y (H : r_bind x y) {struct H} : touch_bind f g x = touch_bind f' g' y :=
  match H in r_bind x y return touch_bind f g x = touch_bind f' g' y with
  | R_B_Id z0 _ _ h1 => cong1 (fun a1 => B_Id z0 a1) (Hf h1)
  | R_B_Array _ _ _ _ h0 h1 => cong2 (fun a0 a1 => B_Array a0 a1) (@all_map _ _ _ _ _ _ (@opt_map _ _ _ _ _ _ (@eq_apat)) _ _ h0) (Hf h1)
  | R_B_Object _ _ _ _ h0 h1 => cong2 (fun a0 a1 => B_Object a0 a1) (@all_map _ _ _ _ _ _ (@eq_opat) _ _ h0) (Hf h1)
  | R_B_Expr _ _ h0 => cong1 (fun a0 => B_Expr a0) ((@eq_node) _ _ h0)
  end
with eq_apat x y (H : r_apat x y) {struct H} : touch_apat f g x = touch_apat f' g' y :=
  match H in r_apat x y return touch_apat f g x = touch_apat f' g' y with
  | R_AP_Assign _ _ _ _ h0 h1 => cong2 (fun a0 a1 => AP_Assign a0 a1) ((@eq_bind) _ _ h0) ((@eq_node) _ _ h1)
  | R_AP_Id z0 => eq_refl
  | R_AP_Array _ _ h0 => cong1 (fun a0 => AP_Array a0) (@all_map _ _ _ _ _ _ (@opt_map _ _ _ _ _ _ (@eq_apat)) _ _ h0)
  | R_AP_Object _ _ h0 => cong1 (fun a0 => AP_Object a0) (@all_map _ _ _ _ _ _ (@eq_opat) _ _ h0)
  | R_AP_Rest _ _ h0 => cong1 (fun a0 => AP_Rest a0) ((@eq_bind) _ _ h0)
  end
with eq_aapat x y (H : r_aapat x y) {struct H} : touch_aapat f g x = touch_aapat f' g' y :=
  match H in r_aapat x y return touch_aapat f g x = touch_aapat f' g' y with
  | R_AA_Expr _ _ h0 => cong1 (fun a0 => AA_Expr a0) ((@eq_node) _ _ h0)
  | R_AA_Rest _ _ h0 => cong1 (fun a0 => AA_Rest a0) ((@eq_bind) _ _ h0)
  end
with eq_key x y (H : r_key x y) {struct H} : touch_key f g x = touch_key f' g' y :=
  match H in r_key x y return touch_key f g x = touch_key f' g' y with
  | R_PK_Id _ _ h0 => cong1 (fun a0 => PK_Id a0) ((@touch_id_eq) _ _ h0)
  | R_PK_Lit _ _ h0 => cong1 (fun a0 => PK_Lit a0) ((@touch_lit_eq) _ _ h0)
  | R_PK_Expr _ _ h0 => cong1 (fun a0 => PK_Expr a0) ((@eq_node) _ _ h0)
  end
with eq_val x y (H : r_val x y) {struct H} : touch_val f g x = touch_val f' g' y :=
  match H in r_val x y return touch_val f g x = touch_val f' g' y with
  | R_PV_Assign _ _ _ _ h0 h1 => cong2 (fun a0 a1 => PV_Assign a0 a1) ((@eq_bind) _ _ h0) ((@eq_node) _ _ h1)
  | R_PV_AsyncFn _ _ _ _ _ _ z3 z4 z5 h0 h1 h2 => cong3 (fun a0 a1 a2 => PV_AsyncFn a0 a1 a2 z3 z4 z5) (@opt_map _ _ _ _ _ _ (@eq_node) _ _ h0) (@all_map _ _ _ _ _ _ (@eq_param) _ _ h1) ((@eq_node) _ _ h2)
  | R_PV_BindId z0 _ _ h1 => cong1 (fun a1 => PV_BindId z0 a1) (Hf h1)
  | R_PV_ArrayPat _ _ h0 => cong1 (fun a0 => PV_ArrayPat a0) (@all_map _ _ _ _ _ _ (@opt_map _ _ _ _ _ _ (@eq_apat)) _ _ h0)
  | R_PV_ObjectPat _ _ h0 => cong1 (fun a0 => PV_ObjectPat a0) (@all_map _ _ _ _ _ _ (@eq_opat) _ _ h0)
  | R_PV_Fn _ _ h0 => cong1 (fun a0 => PV_Fn a0) ((@eq_fn) _ _ h0)
  | R_PV_Expr _ _ h0 => cong1 (fun a0 => PV_Expr a0) ((@eq_node) _ _ h0)
  end
with eq_opat x y (H : r_opat x y) {struct H} : touch_opat f g x = touch_opat f' g' y :=
  match H in r_opat x y return touch_opat f g x = touch_opat f' g' y with
  | R_OP_Prop _ _ z1 _ _ z3 z4 z5 h0 h2 => cong2 (fun a0 a2 => OP_Prop a0 z1 a2 z3 z4 z5) ((@eq_key) _ _ h0) (@opt_map _ _ _ _ _ _ (@eq_val) _ _ h2)
  | R_OP_Rest _ _ h0 => cong1 (fun a0 => OP_Rest a0) ((@eq_bind) _ _ h0)
  end
with eq_param x y (H : r_param x y) {struct H} : touch_param f g x = touch_param f' g' y :=
  match H in r_param x y return touch_param f g x = touch_param f' g' y with
  | R_FP_Assign _ _ _ _ h0 h1 => cong2 (fun a0 a1 => FP_Assign a0 a1) ((@eq_bind) _ _ h0) ((@eq_node) _ _ h1)
  | R_FP_Id z0 => eq_refl
  | R_FP_Array _ _ h0 => cong1 (fun a0 => FP_Array a0) (@all_map _ _ _ _ _ _ (@opt_map _ _ _ _ _ _ (@eq_apat)) _ _ h0)
  | R_FP_Object _ _ h0 => cong1 (fun a0 => FP_Object a0) (@all_map _ _ _ _ _ _ (@eq_opat) _ _ h0)
  | R_FP_Rest _ _ h0 => cong1 (fun a0 => FP_Rest a0) ((@eq_bind) _ _ h0)
  end
with eq_arg x y (H : r_arg x y) {struct H} : touch_arg f g x = touch_arg f' g' y :=
  match H in r_arg x y return touch_arg f g x = touch_arg f' g' y with
  | R_AR_Expr _ _ h0 => cong1 (fun a0 => AR_Expr a0) ((@eq_node) _ _ h0)
  | R_AR_Spread _ _ _ _ h0 h1 => cong2 (fun a0 a1 => AR_Spread a0 a1) ((@eq_node) _ _ h0) (Hf h1)
  end
with eq_prop x y (H : r_prop x y) {struct H} : touch_prop f g x = touch_prop f' g' y :=
  match H in r_prop x y return touch_prop f g x = touch_prop f' g' y with
  | R_OE_Prop _ _ z1 _ _ z3 z4 z5 _ _ h0 h2 h6 => cong3 (fun a0 a2 a6 => OE_Prop a0 z1 a2 z3 z4 z5 a6) ((@eq_key) _ _ h0) (@opt_map _ _ _ _ _ _ (@eq_val) _ _ h2) (Hf h6)
  | R_OE_Spread _ _ _ _ h0 h1 => cong2 (fun a0 a1 => OE_Spread a0 a1) ((@eq_node) _ _ h0) (Hf h1)
  end
with eq_meth x y (H : r_meth x y) {struct H} : touch_meth f g x = touch_meth f' g' y :=
  match H in r_meth x y return touch_meth f g x = touch_meth f' g' y with
  | R_MethodDef _ _ z1 _ _ z3 z4 h0 h2 => cong2 (fun a0 a2 => MethodDef a0 z1 a2 z3 z4) ((@eq_node) _ _ h0) (@opt_map _ _ _ _ _ _ (@eq_fn) _ _ h2)
  end
with eq_fn x y (H : r_fn x y) {struct H} : touch_fn f g x = touch_fn f' g' y :=
  match H in r_fn x y return touch_fn f g x = touch_fn f' g' y with
  | R_FnExpr _ _ _ _ _ _ z3 z4 z5 h0 h1 h2 => cong3 (fun a0 a1 a2 => FnExpr a0 a1 a2 z3 z4 z5) (@opt_map _ _ _ _ _ _ (@eq_node) _ _ h0) (@all_map _ _ _ _ _ _ (@eq_param) _ _ h1) ((@eq_node) _ _ h2)
  end
with eq_case x y (H : r_case x y) {struct H} : touch_case f g x = touch_case f' g' y :=
  match H in r_case x y return touch_case f g x = touch_case f' g' y with
  | R_SwitchCase _ _ _ _ h0 h1 => cong2 (fun a0 a1 => SwitchCase a0 a1) (@opt_map _ _ _ _ _ _ (@eq_node) _ _ h0) (@all_map _ _ _ _ _ _ (@eq_node) _ _ h1)
  end
with eq_decl x y (H : r_decl x y) {struct H} : touch_decl f g x = touch_decl f' g' y :=
  match H in r_decl x y return touch_decl f g x = touch_decl f' g' y with
  | R_VarDeclarator _ _ _ _ h0 h1 => cong2 (fun a0 a1 => VarDeclarator a0 a1) ((@eq_bind) _ _ h0) (@opt_map _ _ _ _ _ _ (@eq_node) _ _ h1)
  end
with eq_catch x y (H : r_catch x y) {struct H} : touch_catch f g x = touch_catch f' g' y :=
  match H in r_catch x y return touch_catch f g x = touch_catch f' g' y with
  | R_CatchClause _ _ _ _ h0 h1 => cong2 (fun a0 a1 => CatchClause a0 a1) (@opt_map _ _ _ _ _ _ (@eq_bind) _ _ h0) ((@eq_node) _ _ h1)
  end.
End Rel.
