(** * GramBal: every phrase of the grammar closes the braces it opens (proofs). *)
From Verif Require Import Base Codepoint Punct Token Scanner SpecLex Ast SpecLayout SpecGrammar GramLex GramBase.
From Coq Require Import ZifyBool ZifyN.
Set Implicit Arguments.

Definition bal (l : list tok) : Prop := forall c u, fits u c -> fits (l ++ u) c.
(** The rest of a template: closes the one it is in. *)
Definition closing (l : list tok) : Prop := forall c u, fits u c -> fits (l ++ u) (BTemplate :: c).
Lemma bal_nil : bal [].
Proof. intros c u H. exact H. Qed.
Lemma bal_app l l' : bal l -> bal l' -> bal (l ++ l').
Proof. intros H H' c u Hu. rewrite <- app_assoc. auto. Qed.
Lemma bal_cons b k l : nobrace k = true -> bal l -> bal (T b k :: l).
Proof.
  intros Hk H c u Hu. cbn [app fits knd]. rewrite nobrace_curly by auto. split; [|apply H; auto].
  destruct k as [[]| | | | | | | | |]; try exact I; discriminate.
Qed.
Lemma bal_brace b b' l r : bal l -> bal r -> bal (P b LBrace :: l ++ P b' RBrace :: r).
Proof.
  intros H H' c u Hu. cbn [app fits knd kopen kcurly]. split; [exact I|]. rewrite <- app_assoc. apply H. cbn [app fits knd kopen kcurly hd_error tl].
  split; [discriminate|]. apply H'; auto.
Qed.
Lemma bal_one b w v : bal [T b (KTempl true true w v)].
Proof. intros c u Hu. cbn [app fits knd kopen kcurly]. auto. Qed.
Lemma bal_head b w v l : closing l -> bal (T b (KTempl true false w v) :: l).
Proof. intros H c u Hu. cbn [app fits knd kopen kcurly]. split; [exact I|]. apply H; auto. Qed.
Lemma closing_last l b w v : bal l -> closing (l ++ [T b (KTempl false true w v)]).
Proof. intros H c u Hu. rewrite <- app_assoc. apply H. cbn [app fits knd kopen kcurly hd_error tl]. auto. Qed.
Lemma closing_more l b w v l' : bal l -> closing l' -> closing (l ++ T b (KTempl false false w v) :: l').
Proof. intros H H' c u Hu. rewrite <- app_assoc. apply H. cbn [app fits knd kopen kcurly hd_error tl]. split; auto. Qed.
Lemma bal_semi e sl nt : semi e sl nt -> bal sl.
Proof. intros [| | |]; try apply bal_nil. apply bal_cons; [reflexivity|apply bal_nil]. Qed.
Lemma level_nobrace inn k q : level inn k = q -> 1 <= q -> nobrace k = true.
Proof. destruct k as [[]| | | | | | | | |]; cbn; auto; lia. Qed.
Lemma unary_nobrace k : unary_op k -> nobrace k = true.
Proof. unfold unary_op. cbn [In]. intros H. repeat destruct H as [<-|H]; [reflexivity..|contradiction]. Qed.
Lemma update_nobrace p : update_op p -> nobrace (KP p) = true.
Proof. intros [->| ->]; reflexivity. Qed.
Lemma assign_nobrace p : assign_op p -> nobrace (KP p) = true.
Proof. unfold assign_op. cbn [In]. intros H. repeat destruct H as [<-|H]; [reflexivity..|contradiction]. Qed.
Lemma name_bal t x l : name_tok t x -> bal l -> bal (t :: l).
Proof. intros [b y|b w Hw] H; apply bal_cons; auto. Qed.
Lemma key_bal t x l : simple_key t x -> bal l -> bal (t :: l).
Proof. intros [t' y H|b w|b w] H'; [eapply name_bal; eauto|apply bal_cons; auto..]. Qed.

Definition shape (c : cat) (l : list tok) : Prop := match c with TemplateRest => closing l | _ => bal l end.
Ltac bals := repeat first [ assumption | apply bal_nil | apply bal_brace | (apply bal_cons; [reflexivity|]) | (eapply bal_semi; eassumption)
  | apply bal_one | apply bal_head | apply closing_last | apply closing_more
  | (apply bal_cons; [solve [eauto using level_nobrace, unary_nobrace, update_nobrace, assign_nobrace]|])
  | (eapply name_bal; [eassumption|]) | (eapply key_bal; [eassumption|])
  | apply bal_app ].
Theorem balanced E M c l nt e : gr E M c l nt e -> shape c l.
Proof.
  induction 1; cbn [shape] in *; try solve [bals].
  all: repeat match goal with
    | H : (_, _) = _ \/ _ |- _ => destruct H as [H|H]
    | H : (_, _) = (_, _) |- _ => injection H as -> ->
    | H : In _ _ |- _ => cbn [In] in H; repeat destruct H as [<-|H]; try contradiction
    | H : (exists _, _) \/ _ |- _ => destruct H as [[? ->]|(-> & ? & ?)]
    end; try solve [bals].
Qed.
