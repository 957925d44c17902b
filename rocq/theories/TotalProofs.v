(** Parsing returns or panics; it never runs for ever. *)
From Coq Require Import String.
From Verif Require Export LiteralProofs.
Local Open Scope list_scope.

Definition settles {A} (o : outcome A) : Prop := o <> OutOfFuel /\ o <> UB.
Lemma settles_ok {A} (a : A) : settles (Ok a). Proof. split; discriminate. Qed.
Lemma settles_panic {A} : settles (@Panic A). Proof. split; discriminate. Qed.
Lemma settles_bind {A B} (o : outcome A) (k : A -> outcome B) : settles o -> (forall a, settles (k a)) -> settles (bind o k).
Proof. intros [H1 H2] Hk. destruct o; cbn [bind]; try congruence; [apply Hk|split; discriminate]. Qed.
Lemma settles_index {A} (l : list A) i : settles (index l i).
Proof. unfold index. destruct (nth_error l i); split; discriminate. Qed.
Lemma settles_mapM {A B} (f : A -> outcome B) : (forall a, settles (f a)) -> forall l, settles (mapM f l).
Proof. intros H. induction l as [|a l IH]; cbn [mapM]; [apply settles_ok|]. apply settles_bind; [apply H|]. intros b. apply settles_bind; [exact IH|]. intros. apply settles_ok. Qed.
Lemma settles_foldM {A S} (f : S -> A -> outcome S) : (forall s a, settles (f s a)) -> forall l s, settles (foldM f l s).
Proof. intros H. induction l as [|a l IH]; intros s; cbn [foldM]; [apply settles_ok|]. apply settles_bind; [apply H|]. intros. apply IH. Qed.
Create HintDb settles.
#[global] Hint Resolve settles_ok settles_panic settles_index : settles.
Lemma anagram_settles l : settles (parse_anagram l).
Proof. destruct l as [|b l]; cbn [parse_anagram]; auto with settles. destruct (is_rule anagram_body b); auto with settles. Qed.
Lemma item_settles n : settles (class_item_of n).
Proof. unfold class_item_of. destruct (node_rule n); auto with settles; repeat (apply settles_bind; [auto with settles|intros]); auto with settles. Qed.
Lemma term_settles k : forall n, nsize n <= k -> settles (parse_term n).
Proof.
  induction k as [|k IH]; intros n Hk; [destruct n; cbn in Hk; lia|]. destruct n as [r t l].
  assert (Hall : forall m, (forall n, In n m -> In n l) -> settles (parse_terms m)).
  { induction m as [|x m IHm]; intros Hm; [apply settles_ok|]. cbn [parse_terms]. fold parse_terms. apply settles_bind; [apply IH; pose proof (nsize_in x l r t (Hm x (or_introl eq_refl))); lia|]. intros a. apply settles_bind; [apply IHm; intros n Hn; apply Hm; right; exact Hn|]. intros. apply settles_ok. }
  specialize (Hall l (fun n H => H)) as Hterms. unfold parse_terms in Hterms.
  assert (Hrep : forall range : list nat -> outcome (nat * option nat), (forall ns, settles (range ns)) ->
    settles (match l with [] => Panic | x :: m => do a <- parse_term x; match a with None => Panic | Some a => do (mn, mx) <- range (parse_numbers m); Ok (Some (Repetition a mn mx)) end end)).
  { intros range Hr. destruct l as [|x m]; [apply settles_panic|]. apply settles_bind; [apply IH; pose proof (nsize_in x (x :: m) r t (or_introl eq_refl)); lia|]. intros [a|]; [|apply settles_panic]. apply settles_bind; [apply Hr|]. intros [mn mx]. apply settles_ok. }
  destruct r; cbn [parse_term]; auto with settles;
    try (apply settles_bind; [exact Hterms|intros; apply settles_ok]);
    try (apply (Hrep (fun _ => Ok (0, Some 1))); intros; apply settles_ok);
    try (apply (Hrep (fun _ => Ok (0, None))); intros; apply settles_ok);
    try (apply (Hrep (fun _ => Ok (1, None))); intros; apply settles_ok);
    try (apply settles_bind; [apply anagram_settles|]; intros [bank [num|]]; auto with settles; fail);
    try (apply settles_bind; [apply settles_index|intros; apply settles_ok]).
  all: try (destruct (parse_usize t); auto with settles; fail).
  all: try (apply settles_bind; [apply settles_mapM, item_settles|intros; apply settles_ok]).
  - apply (Hrep (fun ns => do v <- index ns 0; Ok (0, Some v))); intros; apply settles_bind; auto with settles.
  - apply (Hrep (fun ns => do v <- index ns 0; Ok (v, Some v))); intros; apply settles_bind; auto with settles.
  - apply (Hrep (fun ns => do v <- index ns 0; Ok (v, None))); intros; apply settles_bind; auto with settles.
  - apply (Hrep (fun ns => do v <- index ns 0; do v' <- index ns 1; Ok (v, Some v'))); intros; apply settles_bind; auto with settles. intros. apply settles_bind; auto with settles.
Qed.
Lemma option_settles o n : settles (parse_option o n).
Proof. unfold parse_option. destruct (node_rule n); auto with settles. apply settles_bind; auto with settles. Qed.
Lemma expression_settles n : settles (parse_expression n).
Proof.
  unfold parse_expression. destruct (is_rule r_expression n); auto with settles. destruct (node_inner n) as [|s rest]; auto with settles. destruct (_ || _); auto with settles.
  apply settles_bind; [apply (term_settles (nsize s)); lia|]. intros [a|]; auto with settles. apply settles_bind; [|auto with settles]. apply settles_foldM, option_settles.
Qed.
Lemma add_settles q n : settles (add_line q n).
Proof. unfold add_line. destruct (node_rule n); auto with settles; (apply settles_bind; [first [apply expression_settles|apply settles_index]|intros]); auto with settles. apply settles_bind; auto with settles. Qed.
Lemma line_settles u q i l : settles (parse_query_line u q i l).
Proof.
  unfold parse_query_line. destruct (wordlist (q_options q)); [destruct (text_eqb _ _); apply settles_ok|]. destruct (parse_rule query (substitute (macros q) l)) as [| |r ns] eqn:E; [apply settles_ok|destruct (parse_terminates _ _ E)|].
  destruct ns as [|n ns]; [apply settles_panic|]. destruct (node_inner n); [apply settles_ok|]. apply settles_bind; [apply add_settles|]. intros. apply settles_ok.
Qed.
Lemma lines_settle u ls : forall q i, settles (parse_query_lines u q i ls).
Proof. induction ls as [|l ls IH]; intros q i; cbn [parse_query_lines]; [apply settles_ok|]. apply settles_bind; [apply line_settles|]. intros [q'|n]; [apply IH|apply settles_ok]. Qed.
Lemma replaced_settles a : forall rs, settles (replaced rs a).
Proof.
  set (each := fix each (l : list ast) (rs : list ast) : outcome (list ast * list ast) :=
    match l with
    | [] => Ok ([], rs)
    | x :: l' => do (x', rs1) <- replaced rs x; do (l'', rs2) <- each l' rs1; Ok (x' :: l'', rs2)
    end).
  assert (Hl : forall l, Forall (fun a => forall rs, settles (replaced rs a)) l -> forall rs, settles (each l rs)).
  { induction 1 as [|x l Hx _ IH]; intros rs; [apply settles_ok|]. cbn [each]. fold each. apply settles_bind; [apply Hx|]. intros [x' rs1]. apply settles_bind; [apply IH|]. intros [l'' rs2]. apply settles_ok. }
  induction a as [cs|l IH|l IH|l IH|t mn mx IH|k b] using ast_ind'; intros rs; cbn [replaced]; auto with settles; try (fold each; apply settles_bind; [apply Hl; exact IH|intros [l' rs']; apply settles_ok]).
  destruct rs; auto with settles.
Qed.
Lemma expand_settles es : settles (expand_expressions es).
Proof.
  apply settles_bind; [|intros; apply settles_ok]. apply settles_mapM. intros e. apply settles_mapM. intros i. apply settles_bind; [apply replaced_settles|]. intros [a ?]. apply settles_ok.
Qed.
Lemma parse_settles u t : settles (parse_query u t).
Proof. apply settles_bind; [apply lines_settle|]. intros [q|n]; [|apply settles_ok]. apply settles_bind; [apply expand_settles|]. intros. apply settles_ok. Qed.

(** ** Texts without macros *)
Definition no_equals (t : text) : Prop := Forall (fun c => c <> 61%N) t.
Lemma split_infix t : Forall (fun l => infix l t) (split_lines t).
Proof.
  assert (G : match split_lines t with [] => False | l :: ls => (exists q, t = l ++ q) /\ Forall (fun l => infix l t) ls end).
  { induction t as [|c t IH]; [split; [exists []; reflexivity|constructor]|]. cbn [split_lines]. destruct (split_lines t) as [|l ls]; [contradiction|]. destruct IH as [(q & E) IH].
    assert (M : Forall (fun l => infix l (c :: t)) ls) by (eapply Forall_impl; [|exact IH]; intros x (a & b & ->); exists (c :: a), b; reflexivity).
    destruct (_ || _).
    - split; [exists (c :: t); reflexivity|]. constructor; [exists [c], q; rewrite E; reflexivity|exact M].
    - split; [exists q; rewrite E; reflexivity|exact M]. }
  destruct (split_lines t) as [|l ls]; [contradiction|]. destruct G as [(q & E) G]. constructor; [exists [], q; exact E|exact G].
Qed.
Lemma no_define t ns p rest : yields false (PRule query) t ns -> no_equals t -> ns = [Node query t (p :: rest)] -> node_rule p <> macro_define.
Proof.
  intros H He E. subst ns. apply y_rule in H. destruct H as (n1 & H & E). cbn [silent] in E. injection E as <-. cbn [body choice atomic orb] in H.
  apply y_alt in H. destruct H as [H|H].
  { apply y_rule in H. destruct H as (n2 & H & E). cbn [silent body seqs choice atomic orb] in *. inv_seq H. inversion H0; subst. inv_seq H.
    apply eoi_node in H. destruct H as [-> ->].
    match goal with G : yields _ (PAlt _ _) ?x ?l |- _ => rename G into H2; rename l into nl end.
    assert (G : exists r x m, nl = [Node r x m] /\ r <> macro_define).
    { repeat (apply y_alt in H2; destruct H2 as [H2|H2]; [apply y_rule in H2; destruct H2 as (m & _ & ->); cbn [silent]; do 3 eexists; split; [reflexivity|discriminate]|]). apply y_rule in H2; destruct H2 as (m & _ & ->); cbn [silent]; do 3 eexists; split; [reflexivity|discriminate]. }
    destruct G as (r & x & m & -> & Hr). match goal with X : p :: rest = _ |- _ => injection X as -> _ end. exact Hr. }
  apply y_alt in H. destruct H as [H|H].
  { apply y_rule in H. destruct H as (n2 & H & E). cbn [silent body seqs atomic orb] in *. inv_seq H. inv_seq H. inv_seq H. exfalso. unfold no_equals in He. rewrite !Forall_app in He. destruct He as (_ & _ & _ & _ & He & _). inversion He; subst. match goal with X : _ <> 61%N |- _ => apply X; reflexivity end. }
  apply y_alt in H. destruct H as [H|H].
  { apply y_rule in H. destruct H as (n2 & H & E). cbn [silent] in E. injection E as -> _. discriminate. }
  apply y_rule in H. destruct H as (n2 & H & E). cbn [silent body atomic orb] in *. inv_seq H. inversion H0; subst. apply eoi_node in H. destruct H as [-> ->]. match goal with X : p :: rest = _ |- _ => injection X as -> _ end. discriminate.
Qed.
Lemma lines_no_macros u ls : Forall no_equals ls -> forall q i q', macros q = [] -> parse_query_lines u q i ls = Ok (Parsed q') -> macros q' = [].
Proof.
  induction 1 as [|l ls Hl _ IH]; intros q i q' Hq E; cbn [parse_query_lines] in E; [injection E as <-; exact Hq|].
  destruct (parse_query_line u q i l) as [[q1|n]| | |] eqn:E1; try discriminate. cbn [bind] in E. apply (IH q1 (S i) q'); [|exact E]. clear E IH.
  unfold parse_query_line in E1. destruct (wordlist (q_options q)); [destruct (text_eqb (trim l) []); injection E1 as <-; exact Hq|]. rewrite Hq in E1. cbn [substitute fold_left] in E1.
  destruct (parse_rule query l) as [| |rest ns] eqn:E; try discriminate. apply peg_yields in E. destruct E as (t' & E & Hy).
  destruct (query_effect _ _ Hy) as (p & r & -> & _ & He). cbn [node_inner] in E1. assert (Ht : no_equals t') by (rewrite E in Hl; apply Forall_app in Hl; apply Hl).
  pose proof (no_define _ _ _ _ Hy Ht eq_refl) as Hd.
  destruct (add_line q p) as [q2| | |] eqn:Ea; try discriminate. cbn [bind] in E1. injection E1 as <-. unfold add_line in Ea. destruct (node_rule p); try (injection Ea as <-; exact Hq); [|congruence].
  destruct (parse_expression p); try discriminate. injection Ea as <-. exact Hq.
Qed.
Lemma read_no_macros u ls : Forall no_equals ls -> Forall small_numbers ls -> forall q i, macros q = [] -> Forall small_numbers (read_lines u q i ls).
Proof.
  intros H. induction H as [|l ls Hl Hls IH]; intros Hs q i Hq; [constructor|]. inversion Hs; subst. cbn [read_lines]. apply Forall_app. split.
  - destruct (wordlist (q_options q)); [constructor|]. rewrite Hq. constructor; [assumption|constructor].
  - destruct (parse_query_line u q i l) as [[q'|n]| | |] eqn:E; try constructor. apply IH; [assumption|]. apply (lines_no_macros u [l] (Forall_cons _ Hl (Forall_nil _)) q i q' Hq). cbn [parse_query_lines]. rewrite E. reflexivity.
Qed.
Lemma parse_never_panics u t : no_equals t -> numbers_fit t ->
  exists r, parse_query u t = Ok r /\ match r with Parsed _ => True | ParseError n => 1 <= n <= length (split_lines t) end.
Proof.
  intros He Hf. apply parse_query_total. apply read_no_macros; [| |reflexivity].
  - eapply Forall_impl; [|apply split_infix]. intros l (p & q & ->). unfold no_equals in *. rewrite !Forall_app in He. apply He.
  - eapply Forall_impl; [|apply split_infix]. intros l Hl. eapply small_infix; [exact Hl|]. apply fit_small. exact Hf.
Qed.
