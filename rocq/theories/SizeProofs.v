(** * SizeProofs: trees are not larger than their sources. *)
From Coq Require Import Lia.
From Verif Require Import Base Punct Token Ast ParserBase Parser.
From Verif Require Import SpecLex SpecCol SpecParse SpecTree SpecSlots SpecSpell SpecSize TreeProofs JsonProofs ParseProofs LexProofs SpellTop.
Set Implicit Arguments.
Open Scope nat_scope.

(** ** Sums *)
Definition tot (f : nat) (l : list (role * part)) : nat := list_sum (map (fun c => parts_to f (snd c)) l).
Lemma tot_app f l1 l2 : tot f (l1 ++ l2) = tot f l1 + tot f l2.
Proof. unfold tot. rewrite map_app, list_sum_app. reflexivity. Qed.
Lemma tot_one f r x : tot f (one r x) = parts_to f x.
Proof. cbn. lia. Qed.
Lemma tot_nil f : tot f [] = 0.
Proof. reflexivity. Qed.
Definition sum {A} (f : nat) (T : A -> part) (l : list A) : nat := list_sum (map (fun x => parts_to f (T x)) l).
Lemma tot_on A f r (T : A -> part) l : tot f (on r T l) = sum f T l.
Proof. unfold tot, on, sum. rewrite map_map. reflexivity. Qed.
Lemma sum_cons A f (T : A -> part) x l : sum f T (x :: l) = parts_to f (T x) + sum f T l.
Proof. reflexivity. Qed.
Lemma sum_nil A f (T : A -> part) : sum f T [] = 0.
Proof. reflexivity. Qed.
Definition osum {A} (f : nat) (T : A -> part) (o : option A) : nat := match o with Some x => parts_to f (T x) | None => 0 end.
Lemma tot_opt A f r (T : A -> part) o : tot f (opt r T o) = osum f T o.
Proof. destruct o; cbn; lia. Qed.
Definition hsum {A} (f : nat) (T : A -> part) (l : list (option A)) : nat := list_sum (map (osum f T) l).
Lemma hsum_cons A f (T : A -> part) x l : hsum f T (x :: l) = osum f T x + hsum f T l.
Proof. reflexivity. Qed.
Lemma hsum_nil A f (T : A -> part) : hsum f T [] = 0.
Proof. reflexivity. Qed.
Lemma tot_opts A f r (T : A -> part) l : tot f (opts r T l) = hsum f T l.
Proof. unfold tot, hsum. induction l as [|[x|] l IH]; cbn [opts map list_sum fold_right osum snd]; unfold list_sum in *; cbn [fold_right]; auto; rewrite IH; reflexivity. Qed.
Lemma parts_mono f x : parts_to f x <= parts_to (S f) x.
Proof.
  revert x. induction f as [|f IH]; intros x; cbn [parts_to]; [lia|].
  apply Nat.add_le_mono_l. induction (children x) as [|c l IHl]; [reflexivity|].
  cbn [map list_sum fold_right]. apply Nat.add_le_mono; [apply IH|exact IHl].
Qed.
Lemma unfold_parts f x : parts_to f x <= own x + tot f (children x).
Proof. etransitivity; [apply parts_mono|]. cbn [parts_to]. reflexivity. Qed.

(** ** Tokens *)
Definition real (t : token) : bool := match ttype t with TEof => false | _ => true end.
Definition len (p : pos) : nat := length (filter real (before p)).
Lemma eats_len (P : token -> Prop) p q : (forall t, P t -> real t = true) -> eats P p q -> len q = S (len p).
Proof. intros H [H1 H2]. unfold len. rewrite H1. cbn [filter]. rewrite (H _ H2). reflexivity. Qed.
Ltac real_tac := unfold real; let t := fresh in let H := fresh in intros t H;
  repeat match type of H with
  | _ /\ _ => let H2 := fresh in destruct H as [H H2]
  end.
Lemma eats_tok (P : token -> Prop) p q : eats P p q -> (forall t, P t -> real t = true) -> len q = S (len p).
Proof. intros H G. exact (eats_len G H). Qed.
Lemma kind_real t k : ttype t = k -> k <> TEof -> real t = true.
Proof. unfold real. intros ->. destruct k; congruence. Qed.
Ltac real_solve :=
  let t := fresh "t" in let H := fresh "H" in intros t H;
  unfold is_kind, is_head_piece, is_piece, key_token, is_p, is_k, is_w, is_ref, is_name, is_literal_tok, is_string_tok, is_op in H;
  repeat match goal with
  | H : _ /\ _ |- _ => destruct H
  | H : _ \/ _ |- _ => destruct H
  | H : exists _, _ |- _ => destruct H
  end;
  match goal with H : ttype _ = _ |- _ => eapply kind_real; [exact H|discriminate] end.
Ltac eat :=
  repeat match goal with
  | H : eats _ _ _ |- _ => apply eats_tok in H; [|real_solve]
  end.
Lemma flag_len b (P : token -> Prop) p q : flag b P p q -> (forall t, P t -> real t = true) -> len p <= len q.
Proof. unfold flag. destruct b; [|intros ->; lia]. intros H G. apply eats_tok in H; auto. lia. Qed.
Lemma semi_len p q : semi p q -> len p <= len q.
Proof. intros [H|H _]; [eat; lia|subst; lia]. Qed.
Lemma prefix_len k p q : prefix k p q -> len p <= len q.
Proof. intros H; inversion H; subst; eat; lia. Qed.

Section Lists.
Context {A : Type} (f : nat) (T : A -> part) (R : A -> pos -> pos -> Prop).
Lemma many_len l p q : many R l p q -> (forall x p q, In x l -> R x p q -> parts_to f (T x) + 3 * len p <= 3 * len q) ->
  sum f T l + 3 * len p <= 3 * len q.
Proof.
  induction 1; intros G; rewrite ?sum_cons, ?sum_nil; [lia|]. pose proof (G x p q (or_introl eq_refl) H).
  assert (sum f T l + 3 * len q <= 3 * len r) by (apply IHmany; intros; apply G; cbn; auto). lia.
Qed.
Lemma commas_len l p q : commas R l p q -> (forall x p q, In x l -> R x p q -> parts_to f (T x) + 3 * len p <= 3 * len q) ->
  sum f T l + 3 * len p <= 3 * len q.
Proof.
  induction 1; intros G; rewrite ?sum_cons, ?sum_nil; cbn [length].
  - lia.
  - pose proof (G x p q (or_introl eq_refl) H). lia.
  - pose proof (G x p q (or_introl eq_refl) H). eat.
    assert (sum f T l + 3 * len r <= 3 * len s) by (apply IHcommas; intros; apply G; cbn; auto). lia.
Qed.
Lemma commas1_len l p q : commas1 R l p q -> (forall x p q, In x l -> R x p q -> parts_to f (T x) + 3 * len p <= 3 * len q) ->
  sum f T l + 3 * len p + 3 * length l <= 3 * len q + 3.
Proof.
  induction 1; intros G; rewrite ?sum_cons, ?sum_nil; cbn [length].
  - pose proof (G x p q (or_introl eq_refl) H). lia.
  - pose proof (G x p q (or_introl eq_refl) H). eat.
    assert (sum f T l + 3 * len r + 3 * length l <= 3 * len s + 3) by (apply IHcommas1; intros; apply G; cbn; auto). lia.
Qed.
Lemma commas1_decl l p q : commas1 R l p q -> (forall x p q, In x l -> R x p q -> parts_to f (T x) + 3 * len p <= 3 * len q + 1) ->
  sum f T l + 3 * len p <= 3 * len q + 1.
Proof.
  induction 1; intros G; rewrite ?sum_cons, ?sum_nil; cbn [length].
  - pose proof (G x p q (or_introl eq_refl) H). lia.
  - pose proof (G x p q (or_introl eq_refl) H). eat.
    assert (sum f T l + 3 * len r <= 3 * len s + 1) by (apply IHcommas1; intros; apply G; cbn; auto). lia.
Qed.
Lemma holes_len l p q : holes R l p q -> (forall x p q, In (Some x) l -> R x p q -> parts_to f (T x) + 3 * len p <= 3 * len q) ->
  hsum f T l + 3 * len p <= 3 * len q.
Proof.
  induction 1; intros G; rewrite ?hsum_cons, ?hsum_nil; cbn [osum].
  - lia.
  - eat. assert (hsum f T l + 3 * len q <= 3 * len r) by (apply IHholes; intros; apply G; cbn; auto). lia.
  - pose proof (G x p q (or_introl eq_refl) H). lia.
  - pose proof (G x p q (or_introl eq_refl) H). eat.
    assert (hsum f T l + 3 * len r <= 3 * len s) by (apply IHholes; intros; apply G; cbn; auto). lia.
Qed.
Lemma maybe_len o p q : SpecSpell.maybe R o p q -> (forall x p q, o = Some x -> R x p q -> parts_to f (T x) + 3 * len p <= 3 * len q) ->
  osum f T o + 3 * len p <= 3 * len q.
Proof. destruct 1; intros G; cbn; [lia|]. apply G; auto. Qed.
Lemma class_len l p q : class_items R l p q -> (forall x p q, In x l -> R x p q -> parts_to f (T x) + 3 * len p <= 3 * len q) ->
  sum f T l + 3 * len p <= 3 * len q.
Proof.
  induction 1; intros G; rewrite ?sum_cons, ?sum_nil; cbn [length].
  - lia.
  - eat. assert (sum f T l + 3 * len q <= 3 * len r) by (apply IHclass_items; intros; apply G; cbn; auto). lia.
  - pose proof (G x p q (or_introl eq_refl) H).
    assert (sum f T l + 3 * len q <= 3 * len r) by (apply IHclass_items; intros; apply G; cbn; auto). lia.
Qed.
Lemma properties_len (L : A -> pos -> pos -> Prop) l p q : properties R L l p q ->
  (forall x p q, In x l -> R x p q \/ L x p q -> parts_to f (T x) + 3 * len p <= 3 * len q) ->
  sum f T l + 3 * len p <= 3 * len q.
Proof.
  induction 1; intros G; rewrite ?sum_cons, ?sum_nil; cbn [length].
  - lia.
  - pose proof (G x p q (or_introl eq_refl) (or_introl H)). lia.
  - pose proof (G x p q (or_introl eq_refl) (or_introl H)). eat.
    assert (sum f T l + 3 * len r <= 3 * len s) by (apply IHproperties; intros; apply G; cbn; auto). lia.
  - pose proof (G x p q (or_introl eq_refl) (or_intror H)).
    assert (sum f T l + 3 * len q <= 3 * len r) by (apply IHproperties; intros; apply G; cbn; auto). lia.
Qed.
End Lists.
Lemma block_len o c inner p s : block o c inner p s -> exists q r, inner q r /\ len q = S (len p) /\ len s = S (len r).
Proof. intros [q r H1 H2 H3]. eat. eauto. Qed.

(** A statement that is an expression may have no token of its own; a program has none. *)
Definition is_estmt (n : node) : bool := match n with ExpressionStatement _ _ => true | _ => false end.
Definition is_program (n : node) : bool := match n with Program _ _ _ => true | _ => false end.
Definition plain (x : part) : Prop :=
  match x with
  | T_Node (Program _ _ _) => False
  | T_Node (ExpressionStatement e _) | T_Elem (AE_Expr e) | T_Arg (AR_Expr e) | T_Bind (B_Expr e) | T_AAPat (AA_Expr e) | T_Val (PV_Expr e) => is_estmt e = false
  | _ => True
  end.
Definition spare (x : part) : nat := match x with T_Decl _ => 0 | T_Node n => if is_estmt n then 1 else 2 | _ => 1 end.

Section Main.
Context (E : env) (At : span -> pos -> pos -> Prop) (f : nat).
Definition bnd (x : part) : Prop := plain x /\ forall p q, spells E At x p q -> parts_to f x + spare x + 3 * len p <= 3 * len q + 1.
Definition below (x : part) : Prop := forall path y, occurs x path y -> bnd y.
Lemma below_self x : below x -> bnd x.
Proof. intros H. exact (H [] x (occ_root x)). Qed.
Lemma occurs_down x r y path z : In (r, y) (children x) -> occurs y path z -> exists path', occurs x path' z.
Proof.
  intros Hi. induction 1 as [|path z r' z' H [path' IH] Hc]; [exists [(x, r)]; econstructor; eauto; constructor|].
  eexists. econstructor; eauto.
Qed.
Lemma below_kids x : below x -> kids below (children x).
Proof. intros H r y Hi path z Hz. destruct (@occurs_down x r y path z Hi Hz) as [path' Ho]. exact (H _ _ Ho). Qed.
Lemma below_intro x : bnd x -> kids below (children x) -> below x.
Proof.
  intros H K path y Ho. enough (Q : y = x \/ exists r z path', In (r, z) (children x) /\ occurs z path' y).
  { destruct Q as [->|(r & z & path' & Hi & Hz)]; [exact H|exact (K r z Hi _ _ Hz)]. }
  induction Ho as [|path y r y' Ho IH Hc]; auto. destruct IH as [->|(r' & z & path' & Hi & Hz)]; right.
  - exists r, y', []. split; [exact Hc|constructor].
  - exists r', z, ((y, r) :: path'). split; [exact Hi|econstructor; eauto].
Qed.
Lemma of_part x p q : below x -> spells E At x p q -> parts_to f x + spare x + 3 * len p <= 3 * len q + 1.
Proof. intros H G. exact (proj2 (below_self H) _ _ G). Qed.
Lemma of_node x p q : below (T_Node x) -> spells E At (T_Node x) p q -> parts_to f (T_Node x) + 3 * len p <= 3 * len q.
Proof. intros H G. pose proof (of_part H G) as B. cbn [spare] in B. destruct (is_estmt x); lia. Qed.
Lemma of_expr x p q : below (T_Node x) -> is_estmt x = false -> spells E At (T_Node x) p q -> parts_to f (T_Node x) + 1 + 3 * len p <= 3 * len q.
Proof. intros H K G. pose proof (of_part H G) as B. cbn [spare] in B. rewrite K in B. lia. Qed.

Lemma key_len k c p q : key E At (spells E At) k c p q -> below (T_Key k) -> parts_to f (T_Key k) + 2 + 3 * len p <= 3 * len q.
Proof.
  intros H B. pose proof (unfold_parts f (T_Key k)) as U. apply below_kids in B. destruct H; eat; cbn [children own] in *.
  - cbn in U. lia.
  - cbn in U. lia.
  - apply kids_one in B. apply block_len in H. destruct H as (q0 & r & H & H1 & H2). apply of_node in H; auto.
    rewrite tot_one in U. unfold own in U. lia.
Qed.
Lemma pattern_key_len k c p q : pattern_key E At (spells E At) k c p q -> below (T_Key k) -> parts_to f (T_Key k) + 2 + 3 * len p <= 3 * len q.
Proof.
  intros H B. pose proof (unfold_parts f (T_Key k)) as U. apply below_kids in B. destruct H; eat; cbn [children own] in *.
  - cbn in U. lia.
  - apply kids_one in B. apply block_len in H. destruct H as (q0 & r & H & H1 & H2). apply of_node in H; auto.
    rewrite tot_one in U. unfold own in U. lia.
Qed.
Lemma member_len n c p q : member_name At (spells E At) n c p q -> below (T_Node n) -> parts_to f (T_Node n) + 2 + 3 * len p <= 3 * len q.
Proof.
  intros H B. pose proof (unfold_parts f (T_Node n)) as U. destruct H; eat.
  - cbn in U. lia.
  - apply block_len in H. destruct H as (q0 & r & H & H1 & H2). apply of_node in H; auto. lia.
Qed.
Lemma function_len ps b p q : function (spells E At) ps b p q -> Forall (fun x => below (T_Param x)) ps -> below (T_Node b) ->
  sum f T_Param ps + parts_to f (T_Node b) + 6 + 3 * len p <= 3 * len q.
Proof.
  intros [q0 H1 H2] B1 B2. apply block_len in H1. destruct H1 as (q1 & r & H & H3 & H4). apply of_node in H2; auto.
  apply commas_len with (f := f) (T := T_Param) in H; [lia|].
  rewrite Forall_forall in B1. intros x p' q' Hi Hx. apply of_part in Hx; auto. cbn [spare] in Hx. lia.
Qed.
Lemma tail_len tes es p q : template_tail (spells E At) tes es p q -> Forall (fun x => below (T_Node x)) es ->
  sum f T_Node es + 3 * length tes + 3 * len p <= 3 * len q.
Proof.
  induction 1; intros B; cbn [length]; rewrite ?sum_nil, ?sum_cons; [lia|]. inversion_clear B. apply of_node in H; auto.
  eat. specialize (IHtemplate_tail H4). lia.
Qed.
Lemma template_len tes es p q : template (spells E At) tes es p q -> Forall (fun x => below (T_Node x)) es ->
  sum f T_Node es + 3 * length tes + 3 * len p <= 3 * len q /\ 1 <= length tes.
Proof. intros H B. destruct H. apply tail_len in H1; auto. eat. cbn [length]. lia. Qed.
Lemma declarations_len ds k p q : declarations (spells E At) ds k p q -> Forall (fun x => below (T_Decl x)) ds ->
  sum f T_Decl ds + 2 + 3 * len p <= 3 * len q.
Proof.
  intros [q0 H1 H2] B. eat. apply commas1_decl with (f := f) (T := T_Decl) in H2; [lia|].
  rewrite Forall_forall in B. intros x p' q' Hi Hx. apply of_part in Hx; auto. cbn [spare] in Hx. lia.
Qed.
Lemma import_item_len x p q : import_item At x p q -> 3 + 3 * len p <= 3 * len q.
Proof. destruct 1; eat; lia. Qed.
Lemma export_item_len x p q : export_item At x p q -> 3 + 3 * len p <= 3 * len q.
Proof. destruct 1; eat; lia. Qed.
Lemma commas_count A (R : A -> pos -> pos -> Prop) l p q : commas R l p q -> (forall x p q, R x p q -> 3 + 3 * len p <= 3 * len q) -> 3 * length l + 3 * len p <= 3 * len q.
Proof.
  induction 1; intros G; cbn [length]; [lia|apply G in H; lia|]. eat. apply G in H. specialize (IHcommas G). lia.
Qed.
Lemma import_rest_len l p q : import_rest At l p q -> length l + 3 * len p <= 3 * len q.
Proof.
  destruct 1; eat; cbn [length]; [lia|]. apply block_len in H. destruct H as (q0 & r & H & H1 & H2).
  apply commas_count in H; [lia|]. intros; eapply import_item_len; eauto.
Qed.
Lemma import_len l p q : import_clause At l p q -> length l + 3 * len p <= 3 * len q.
Proof. destruct 1; eat; cbn [length]; try lia; apply import_rest_len in H || apply import_rest_len in H2; lia. Qed.

(** One construct at a time. *)
Lemma of_maybe o p q : SpecSpell.maybe (fun x => spells E At (T_Node x)) o p q -> (forall x, o = Some x -> below (T_Node x)) -> osum f T_Node o + 3 * len p <= 3 * len q.
Proof. intros H B. eapply maybe_len; [exact H|]. intros x p' q' Hx G. eapply of_node; eauto. Qed.
Lemma of_many l p q : many (fun x => spells E At (T_Node x)) l p q -> Forall (fun x => below (T_Node x)) l -> sum f T_Node l + 3 * len p <= 3 * len q.
Proof. intros H B. rewrite Forall_forall in B. eapply many_len; [exact H|]. intros x p' q' Hx G. eapply of_node; eauto. Qed.
Lemma of_cases l p q : many (fun x => spells E At (T_Case x)) l p q -> Forall (fun x => below (T_Case x)) l -> sum f T_Case l + 3 * len p <= 3 * len q.
Proof. intros H B. rewrite Forall_forall in B. eapply many_len; [exact H|]. intros x p' q' Hx G. apply of_part in G; auto. cbn [spare] in G. lia. Qed.
Lemma of_commas A (T : A -> part) l p q : (forall x, spare (T x) = 1) -> commas (fun x => spells E At (T x)) l p q -> Forall (fun x => below (T x)) l -> sum f T l + 3 * len p <= 3 * len q.
Proof. intros Q H B. rewrite Forall_forall in B. eapply commas_len; [exact H|]. intros x p' q' Hx G. apply of_part in G; auto. rewrite Q in G. lia. Qed.
Lemma of_commas1 l p q : commas1 (fun x => spells E At (T_Node x)) l p q -> Forall (fun x => below (T_Node x)) l -> sum f T_Node l + 3 * len p + 3 * length l <= 3 * len q + 3.
Proof. intros H B. rewrite Forall_forall in B. eapply commas1_len; [exact H|]. intros x p' q' Hx G. eapply of_node; eauto. Qed.
Lemma of_holes A (T : A -> part) l p q : (forall x, spare (T x) = 1) -> holes (fun x => spells E At (T x)) l p q ->
  Forall (fun o => forall x, o = Some x -> below (T x)) l -> hsum f T l + 3 * len p <= 3 * len q.
Proof.
  intros Q H B. rewrite Forall_forall in B. eapply holes_len; [exact H|]. intros x p' q' Hx G. apply of_part in G; [|exact (B _ Hx _ eq_refl)]. rewrite Q in G. lia.
Qed.
Lemma of_class l p q : class_items (fun x => spells E At (T_Meth x)) l p q -> Forall (fun x => below (T_Meth x)) l -> sum f T_Meth l + 3 * len p <= 3 * len q.
Proof. intros H B. rewrite Forall_forall in B. eapply class_len; [exact H|]. intros x p' q' Hx G. apply of_part in G; auto. cbn [spare] in G. lia. Qed.

Lemma of_params l p q : commas (fun x => spells E At (T_Param x)) l p q -> Forall (fun x => below (T_Param x)) l -> sum f T_Param l + 3 * len p <= 3 * len q.
Proof. apply of_commas. reflexivity. Qed.
Lemma of_args l p q : commas (fun x => spells E At (T_Arg x)) l p q -> Forall (fun x => below (T_Arg x)) l -> sum f T_Arg l + 3 * len p <= 3 * len q.
Proof. apply of_commas. reflexivity. Qed.
Lemma of_opats l p q : commas (fun x => spells E At (T_OPat x)) l p q -> Forall (fun x => below (T_OPat x)) l -> sum f T_OPat l + 3 * len p <= 3 * len q.
Proof. apply of_commas. reflexivity. Qed.
Definition all_some {A} (T : A -> part) (l : list (option A)) := Forall (fun o => forall x, o = Some x -> below (T x)) l.
Lemma of_elems l p q : holes (fun x => spells E At (T_Elem x)) l p q -> all_some T_Elem l -> hsum f T_Elem l + 3 * len p <= 3 * len q.
Proof. apply of_holes. reflexivity. Qed.
Lemma of_apats l p q : holes (fun x => spells E At (T_APat x)) l p q -> all_some T_APat l -> hsum f T_APat l + 3 * len p <= 3 * len q.
Proof. apply of_holes. reflexivity. Qed.
Lemma of_aapats l p q : holes (fun x => spells E At (T_AAPat x)) l p q -> all_some T_AAPat l -> hsum f T_AAPat l + 3 * len p <= 3 * len q.
Proof. apply of_holes. reflexivity. Qed.

Ltac kids_of B := apply below_kids in B; cbn [children] in B; kids_in B; repeat match type of B with _ /\ _ => let B2 := fresh "B" in destruct B as [B B2] end.
Ltac simpl_sums := cbn [osum] in *; rewrite ?tot_app, ?tot_one, ?tot_on, ?tot_opt, ?tot_opts, ?tot_nil, ?sum_cons, ?sum_nil in *; cbn [osum] in *.
Ltac expand y :=
  let U := fresh "U" in pose proof (unfold_parts f y) as U; cbn [children] in U; unfold own, function_children in U;
  try (match goal with B : below y |- _ => apply below_kids in B; cbn [children] in B; kids_in B;
    repeat match goal with H : _ /\ _ |- _ => destruct H end end);
  let z := fresh "z" in set (z := parts_to f y) in *; clearbody z.
Ltac use_below :=
  repeat match goal with
    | H : forall x, Some _ = Some x -> _ |- _ => specialize (H _ eq_refl)
    | H : Forall _ (_ :: _) |- _ => apply Forall_cons_iff in H; destruct H
    | H : Forall _ [] |- _ => clear H
    | H : spells _ _ (T_Node ?x) _ _, G : is_estmt ?x = false, B : below (T_Node ?x) |- _ => apply (@of_expr x _ _ B G) in H; clear G
    | H : spells _ _ (T_Node ?x) _ _, B : below (T_Node ?x) |- _ => apply (@of_node x _ _ B) in H
    | H : spells _ _ ?x _ _, B : below ?x |- _ => apply (@of_part x _ _ B) in H; cbn [spare] in H
    | H : SpecSpell.maybe _ ?o _ _, B : forall x, ?o = Some x -> below (T_Node x) |- _ => apply (fun H => @of_maybe o _ _ H B) in H
    | H : many _ ?l _ _, B : Forall (fun x => below (T_Node x)) ?l |- _ => apply (fun H => @of_many l _ _ H B) in H
    | H : many _ ?l _ _, B : Forall (fun x => below (T_Case x)) ?l |- _ => apply (fun H => @of_cases l _ _ H B) in H
    | H : commas _ ?l _ _, B : Forall _ ?l |- _ => apply (fun H => @of_params l _ _ H B) in H
    | H : commas _ ?l _ _, B : Forall _ ?l |- _ => apply (fun H => @of_args l _ _ H B) in H
    | H : commas _ ?l _ _, B : Forall _ ?l |- _ => apply (fun H => @of_opats l _ _ H B) in H
    | H : holes _ ?l _ _, B : Forall _ ?l |- _ => apply (fun H => @of_elems l _ _ H B) in H
    | H : holes _ ?l _ _, B : Forall _ ?l |- _ => apply (fun H => @of_apats l _ _ H B) in H
    | H : holes _ ?l _ _, B : Forall _ ?l |- _ => apply (fun H => @of_aapats l _ _ H B) in H
    | H : class_items _ ?l _ _, B : Forall _ ?l |- _ => apply (fun H => @of_class l _ _ H B) in H
    | H : commas1 _ ?l _ _, B : Forall (fun x => below (T_Node x)) ?l |- _ => apply (fun H => @of_commas1 l _ _ H B) in H
    | H : function _ [] ?b _ _, B2 : below (T_Node ?b) |- _ => apply (fun H => @function_len [] b _ _ H (Forall_nil _) B2) in H
    | H : function _ ?ps ?b _ _, B1 : Forall _ ?ps, B2 : below (T_Node ?b) |- _ => apply (fun H => @function_len ps b _ _ H B1 B2) in H
    | H : template _ ?tes ?es _ _, B : Forall _ ?es |- _ => apply (fun H => @template_len tes es _ _ H B) in H; destruct H
    | H : declarations _ ?ds _ _ _, B : Forall _ ?ds |- _ => apply (fun H => @declarations_len ds _ _ _ H B) in H
    | H : key _ _ _ ?k _ _ _, B : below (T_Key ?k) |- _ => apply (fun H => @key_len k _ _ _ H B) in H
    | H : pattern_key _ _ _ ?k _ _ _, B : below (T_Key ?k) |- _ => apply (fun H => @pattern_key_len k _ _ _ H B) in H
    | H : member_name _ _ ?n _ _ _, B : below (T_Node ?n) |- _ => apply (fun H => @member_len n _ _ _ H B) in H
    | H : import_clause _ _ _ _ |- _ => apply import_len in H
    end.
Ltac expand_all :=
  repeat match goal with
    | |- context[parts_to f (T_Val (PV_Expr ?e))] => expand (T_Val (PV_Expr e))
    | |- context[parts_to f (T_Val (PV_Fn ?e))] => expand (T_Val (PV_Fn e))
    | U : context[parts_to f (T_Fn (FnExpr ?a ?b ?c ?d ?e ?g))] |- _ => expand (T_Fn (FnExpr a b c d e g))
    | |- context[parts_to f (T_Fn (FnExpr ?a ?b ?c ?d ?e ?g))] => expand (T_Fn (FnExpr a b c d e g))
    | |- context[parts_to f (T_Val (PV_AsyncFn ?a ?b ?c ?d ?e ?g))] => expand (T_Val (PV_AsyncFn a b c d e g))
    | |- context[parts_to f (T_Val (PV_Assign ?b ?e))] => expand (T_Val (PV_Assign b e))
    | U : context[parts_to f (T_Bind (B_Id ?n ?sp))] |- _ => expand (T_Bind (B_Id n sp))
    | |- context[parts_to f (T_Key (PK_Id ?i))] => expand (T_Key (PK_Id i))
    | |- context[parts_to f (T_Param (FP_Id ?i))] => expand (T_Param (FP_Id i))
    | |- context[parts_to f (T_Node (Identifier ?a ?b ?c))] => expand (T_Node (Identifier a b c))
    end; simpl_sums.
Lemma spells_bound x : (forall r y, In (r, y) (children x) -> below y) -> plain x -> bnd x.
Proof.
  intros IH G. split; [exact G|]. intros p q H. etransitivity; [do 2 apply Nat.add_le_mono_r; apply unfold_parts|].
  change (kids below (children x)) in IH.
  destruct H; try contradiction G.
  all: cbn [children plain spare is_estmt osum] in *; unfold own, function_children in *; simpl_sums.
  all: kids_in IH.
  all: repeat match goal with H : _ /\ _ |- _ => destruct H end.
  all: eat.
  all: repeat match goal with
    | H : block _ _ _ _ _ |- _ => apply block_len in H; destruct H as (? & ? & H & ? & ?)
    | H : exists _, _ |- _ => destruct H
    | H : _ /\ _ |- _ => destruct H
    | H : clause _ _ _ _ _ |- _ => destruct H
    | H : SpecSpell.semi _ _ |- _ => apply semi_len in H
    | H : prefix _ _ _ |- _ => apply prefix_len in H
    | H : flag _ _ _ _ |- _ => apply flag_len in H; [|real_solve]
    end.
  all: eat.
  all: use_below.
  all: expand_all.
  all: expand_all.
  all: use_below.
  all: try lia.
  all: try match goal with |- context[is_estmt ?x] => destruct (is_estmt x); lia end.
  all: cbn [length]; unfold module_name in *; repeat match goal with H : _ /\ _ |- _ => destruct H end; eat; try lia.
  - destruct H as [[-> ->]|H]; use_below; rewrite ?sum_nil; lia.
  - assert (Q : sum f T_Prop ps + 3 * len x <= 3 * len x0); [|lia]. rewrite Forall_forall in IH. eapply properties_len; [exact H|].
    intros y p' q' Hi [Hy|Hy]; [apply of_part in Hy; [|apply IH; exact Hi]; cbn [spare] in Hy; lia|].
    destruct Hy as (k & c & fn & sp' & r & s & -> & H2 & H3 & ps' & b & -> & H4). specialize (IH _ Hi). apply below_kids in IH.
    pose proof (unfold_parts f (T_Prop (OE_Prop k c (Some (PV_Fn (FnExpr None ps' b true false false))) "init" true false sp'))) as U.
    cbn [children] in U, IH. unfold own in U. kids_in IH. repeat match goal with H : _ /\ _ |- _ => destruct H end. eat. use_below. simpl_sums.
    expand (T_Val (PV_Fn (FnExpr None ps' b true false false))). simpl_sums. expand_all. use_below. lia.
  - assert (Q : osum f T_Node sup + 3 * len r <= 3 * len s).
    { destruct sup as [e|]; match goal with H : SpecSpell.maybe _ _ r s |- _ => inversion H; subst end; cbn [osum]; [|lia].
      match goal with H : clause _ _ _ _ _ |- _ => destruct H end. eat. use_below. lia. }
    lia.
  - assert (Q : osum f T_Node i + 3 * len x <= 3 * len x1 + 1); [|lia].
    match goal with H : for_init _ _ _ _ |- _ => destruct H end; try (assert (1 <= length es) by (match goal with H : commas1 _ _ _ _ |- _ => destruct H; cbn; lia end)); use_below; cbn [osum].
    + lia.
    + match goal with |- context[parts_to f ?y] => pose proof (unfold_parts f y) as U end. unfold own in U. cbn [children] in U.
      match goal with B : below (T_Node (VariableDeclaration _ _ _)), H : declarations _ _ _ _ _ |- _ => apply below_kids in B; cbn [children] in B; kids_in B end. use_below. simpl_sums. lia.
    + match goal with |- context[parts_to f ?y] => pose proof (unfold_parts f y) as U end. unfold own in U. cbn [children] in U.
      match goal with B : below (T_Node (SequenceExpression _ _ _)) |- _ => apply below_kids in B; cbn [children] in B; kids_in B end. use_below. simpl_sums.
      lia.
  - match goal with H : for_target _ _ _ _ _ |- _ => destruct H end; eat; use_below; lia.
  - match goal with H : for_target _ _ _ _ _ |- _ => destruct H end; eat; use_below; lia.
  - assert (Q : osum f T_Node f0 + 3 * len s <= 3 * len t).
    { destruct f0 as [e|]; match goal with H : SpecSpell.maybe _ _ s t |- _ => inversion H; subst end; cbn [osum]; [|lia].
      match goal with H : clause _ _ _ _ _ |- _ => destruct H end. eat. use_below. lia. }
    assert (Q2 : osum f T_Catch h + 3 * len r <= 3 * len s).
    { destruct h as [e|]; match goal with H : SpecSpell.maybe _ _ r s |- _ => inversion H; subst end; cbn [osum]; [|lia].
      use_below. lia. }
    lia.
  - match goal with H : commas export_item _ _ _ |- _ => idtac | H : commas _ _ _ _ |- _ => apply commas_count in H; [lia|intros; eapply export_item_len; eauto] end.
Qed.
End Main.

(** ** Whole trees *)
Lemma target_plain n : assign_target false n -> is_estmt n = false.
Proof. intros [H|H]; destruct n; try reflexivity; [inversion H|discriminate H]. Qed.
Lemma element_plain n : element_target false n -> is_estmt n = false.
Proof. intros [H|(l & r & sp & -> & _)]; [exact (target_plain H)|reflexivity]. Qed.
Lemma expr_plain n : is_expr n = true -> is_estmt n = false.
Proof. destruct n; intros H; try discriminate H; reflexivity. Qed.
Lemma tree_plain E src t path x : tree_of E src t -> occurs (T_Node t) path x -> path <> [] -> plain x.
Proof.
  intros HT Ho Hp. assert (F : forall s n, In (s, n) (slots x) -> fills s n) by (intros s n Hi; eapply slots_filled; eauto).
  destruct x as [n|[]|[]| |[]| |v| | |[]| | | | | | ]; try exact I; cbn [plain]; cbn [slots] in F.
  - destruct n; try exact I; [exact (expr_plain _ (F _ _ (or_introl eq_refl)))|]. destruct (program_root HT Ho) as [Hn _]. contradiction.
  - exact (expr_plain _ (F _ _ (or_introl eq_refl))).
  - exact (target_plain (F _ _ (or_introl eq_refl))).
  - exact (element_plain (F _ _ (or_introl eq_refl))).
  - destruct v; try exact I. clear F. inversion Ho as [|path' y r z Hy Hi]; subst.
    assert (F : forall s n, In (s, n) (slots y) -> fills s n) by (intros s n Hj; eapply slots_filled; eauto).
    assert (Q : In (S_Expr, e) (slots y) \/ In (S_Element, e) (slots y)).
    { clear - Hi. destruct y as [n|[]|[]|[]|[]|[]|[]|[k c o|]|[]|[]|[k c o|]|[]|[]|[]|[]|[]]; try destruct n; cbn [children] in Hi; unfold function_children, one, opt, on in Hi;
        repeat (rewrite in_app_iff in Hi || rewrite in_map_iff in Hi);
        repeat match goal with
        | H : _ \/ _ |- _ => destruct H
        | H : exists _, _ |- _ => destruct H
        | H : _ /\ _ |- _ => destruct H
        | H : In _ (opts _ _ ?l) |- _ => exfalso; induction l as [|[|] l IHl]; cbn in H; intuition discriminate
        | H : In _ (match ?o with Some _ => _ | None => _ end) |- _ => destruct o; cbn in H
        | H : In _ [_] |- _ => destruct H as [H|[]]
        | H : In _ [] |- _ => destruct H
        | H : (_, _) = (_, _) |- _ => first [discriminate H | injection H as ? ?; subst]
        | H : T_Val _ = T_Val _ |- _ => injection H as ->
        | H : False |- _ => destruct H
        end; cbn; auto. }
    destruct Q as [Q|Q]; apply F in Q; [exact (expr_plain _ Q)|exact (element_plain Q)].
  - exact (expr_plain _ (F _ _ (or_introl eq_refl))).
Qed.
Lemma tree_below E At f src t : tree_of E src t -> forall x path, occurs (T_Node t) path x -> path <> [] -> below E At f x.
Proof.
  intros HT. induction x as [x IH] using part_induction. intros path Ho Hp.
  assert (K : kids (below E At f) (children x)).
  { intros r y Hi. eapply (IH r y Hi ((x, r) :: path)); [econstructor; eauto|discriminate]. }
  apply below_intro; [|exact K]. apply spells_bound; [exact K|]. eapply tree_plain; eauto.
Qed.
Lemma lexeme_real E t l : lexeme E t l -> real t = true -> 1 <= length l.
Proof.
  intros H R. assert (G : ttype t <> TEof) by (intros G; unfold real in R; rewrite G in R; discriminate R).
  pose proof (lexeme_nonnil _ _ _ H G) as N. destruct l; [congruence|cbn; lia].
Qed.
Lemma tiles_real E ts text final : tiles E ts text final -> length (filter real ts) + length final <= length text.
Proof.
  induction 1 as [|t ts tr l r final H1 H2 H3 IH]; [cbn; lia|]. rewrite !app_length. cbn [filter].
  pose proof (lexeme_real H2) as L. destruct (real t); cbn [length]; [specialize (L eq_refl)|]; lia.
Qed.
Lemma real_app l1 l2 : filter real (l1 ++ l2) = filter real l1 ++ filter real l2.
Proof. induction l1 as [|t l IH]; cbn; auto. rewrite IH. destruct (real t); reflexivity. Qed.
Lemma real_rev l : length (filter real (rev l)) = length (filter real l).
Proof. induction l as [|t l IH]; cbn; auto. rewrite real_app, app_length, IH. cbn. destruct (real t); cbn; lia. Qed.
Lemma size_bound E src t d : tree_of E src t -> parts_to d (T_Node t) <= 3 * length src + 1.
Proof.
  intros HT. assert (R : reads_as E src t) by (destruct HT; [apply script_reads|apply module_reads]; assumption).
  destruct R as (ts & eof & first & H1 & _ & H2 & H3).
  assert (K : kids (below E (fun _ _ _ => True) d) (children (T_Node t))).
  { intros r y Hi. eapply (@tree_below E (fun _ _ _ => True) d src t HT y [(T_Node t, r)]); [econstructor; [constructor|exact Hi]|discriminate]. }
  assert (exists l ty sp, t = Program l ty sp) as (l & ty & sp & ->).
  { destruct HT as [HT|HT]; [destruct (script_program _ _ HT) as (l & sp & ->)|destruct (module_program _ _ HT) as (l & sp & ->)]; eauto. }
  inversion H3; subst. etransitivity; [apply unfold_parts|]. cbn [children] in *. rewrite tot_on. unfold own. apply kids_on in K.
  match goal with H : many _ _ _ _ |- _ => apply (fun H => @of_many _ _ _ _ _ _ H K) in H end.
  apply tiles_real in H1. rewrite real_app, app_length in H1. unfold len in *. cbn [before filter length] in *. rewrite real_rev in *. lia.
Qed.

(** The depth. *)
Lemma depth_count d x path y : occurs x path y -> length path <= d -> length path + 1 <= parts_to d x.
Proof.
  intros Ho. enough (Q : forall k, length path + parts_to k y <= parts_to (length path + k) x).
  { intros Hd. specialize (Q (d - length path)). replace (length path + (d - length path)) with d in Q by lia.
    assert (1 <= parts_to (d - length path) y) by (destruct (d - length path); cbn [parts_to]; unfold own; lia). lia. }
  induction Ho as [|path y r z Ho IH Hc]; intros k; [cbn; lia|]. cbn [length].
  specialize (IH (S k)). replace (length path + S k) with (S (length path) + k) in IH by lia. etransitivity; [|exact IH].
  cbn [parts_to]. fold (tot k (children y)). assert (parts_to k z <= tot k (children y)); [|unfold own; lia].
  clear - Hc. induction (children y) as [|c l IHl]; [destruct Hc|]. unfold tot in *. cbn [map list_sum fold_right]. destruct Hc as [->|Hc]; [cbn [snd]; lia|].
  specialize (IHl Hc). unfold list_sum in IHl. lia.
Qed.
Lemma depth_bound E src t path x : tree_of E src t -> occurs (T_Node t) path x -> length path <= 3 * length src.
Proof. intros HT Ho. pose proof (depth_count Ho (Nat.le_refl _)). pose proof (size_bound (length path) HT). lia. Qed.
(** Below the deepest part there is nothing to count. *)
Lemma parts_all d x k : (forall path y, occurs x path y -> length path <= d) -> parts_to (d + k) x = parts_to d x.
Proof.
  revert x. induction d as [|d IH]; intros x H.
  - destruct k as [|k]; [reflexivity|]. cbn [Nat.add parts_to]. destruct (children x) as [|[r y] l] eqn:Hc; [reflexivity|].
    specialize (H [(x, r)] y). exfalso. assert (occurs x [(x, r)] y) by (econstructor; [constructor|rewrite Hc; left; reflexivity]). specialize (H H0). cbn in H. lia.
  - cbn [Nat.add parts_to]. f_equal. f_equal. apply map_ext_in. intros [r y] Hi. cbn [snd]. apply IH. intros path z Hz.
    assert (Q : exists path', occurs x path' z /\ length path' = S (length path)).
    { clear - Hi Hz. induction Hz as [|path z r' z' Hz [path' [IH E]] Hc]; [exists [(x, r)]; split; [econstructor; [constructor|exact Hi]|reflexivity]|].
      eexists. split; [econstructor; eauto|]. cbn. lia. }
    destruct Q as (path' & Q & L). specialize (H _ _ Q). lia.
Qed.
