(** Proofs for C50: only numbers make the parser panic, also with macros. *)
From Coq Require Import String.
From Verif Require Export PrintProofs TotalProofs MacroProofs.
Local Open Scope list_scope.

Lemma expression_banks n e : parse_expression n = Ok e -> banks_ok (root e) = true.
Proof.
  unfold parse_expression. destruct (is_rule r_expression n); [|discriminate]. destruct (node_inner n) as [|sub rest]; [discriminate|]. destruct (_ || _); [|discriminate]. intros E. apply bind_Ok in E. destruct E as (a & Ea & E). destruct a as [a|]; [|discriminate E].
  apply bind_Ok in E. destruct E as (o & _ & E). injection E as <-. exact (term_banks (nsize sub) sub a (le_n _) Ea).
Qed.
Lemma add_line_banks q n q' : q_ok q -> add_line q n = Ok q' -> q_ok q'.
Proof.
  intros Hq E. unfold add_line in E. destruct (node_rule n); try (injection E as <-; exact Hq).
  - apply bind_Ok in E. destruct E as (e & Ee & E). injection E as <-. unfold q_ok. cbn [q_expressions]. apply Forall_app. split; [exact Hq|]. constructor; [exact (expression_banks n e Ee)|constructor].
  - apply bind_Ok in E. destruct E as (k & _ & E). apply bind_Ok in E. destruct E as (v & _ & E). injection E as <-. exact Hq.
Qed.
Lemma line_banks u q i l q' : q_ok q -> parse_query_line u q i l = Ok (Parsed q') -> q_ok q'.
Proof.
  intros Hq E. unfold parse_query_line in E. destruct (wordlist (q_options q)); [destruct (text_eqb (trim l) []); injection E as <-; exact Hq|].
  destruct (parse_rule query _) as [| |rest ns]; try discriminate. destruct ns as [|n ns]; [discriminate|]. destruct (node_inner n) as [|p ps]; [injection E as <-; exact Hq|]. apply bind_Ok in E. destruct E as (q1 & E1 & E). injection E as <-. exact (add_line_banks q p q1 Hq E1).
Qed.
Lemma lines_banks u ls : forall q i q', q_ok q -> parse_query_lines u q i ls = Ok (Parsed q') -> q_ok q'.
Proof.
  induction ls as [|l ls IH]; intros q i q' Hq E; cbn [parse_query_lines] in E; [injection E as <-; exact Hq|]. apply bind_Ok in E. destruct E as (r & E1 & E). destruct r as [q1|n]; [|discriminate E]. exact (IH q1 _ q' (line_banks u q i l q1 Hq E1) E).
Qed.
Lemma finish_ok q : q_ok q -> exists q', finish q = Ok (Parsed q').
Proof. intros H. unfold finish. destruct (expand_all (q_expressions q) H) as (ess & -> & _). cbn [bind]. eauto. Qed.

Lemma read_in u ls : forall q i x, In x (read_lines u q i ls) -> exists ls1 l ls2 q', ls = ls1 ++ l :: ls2 /\ parse_query_lines u q i ls1 = Ok (Parsed q') /\ wordlist (q_options q') = None /\ x = substitute (macros q') l.
Proof.
  induction ls as [|l ls IH]; intros q i x H; cbn [read_lines] in H; [destruct H|]. apply in_app_or in H. destruct H as [H|H].
  - destruct (wordlist (q_options q)) eqn:E; [destruct H|]. destruct H as [<-|[]]. exists [], l, ls, q. repeat split. exact E.
  - destruct (parse_query_line u q i l) as [[q1|n]| | |] eqn:E; try destruct H. destruct (IH q1 (S i) x H) as (ls1 & l' & ls2 & q' & -> & E' & Hw & Hx). exists (l :: ls1), l', ls2, q'. split; [reflexivity|]. cbn [parse_query_lines]. rewrite E. cbn [bind]. auto.
Qed.
Lemma split_first t : forall l ls, split_lines t = l :: ls -> exists r, t = l ++ r /\ ((ls = [] /\ r = []) \/ exists s r', r = s :: r' /\ sep s /\ split_lines r' = ls).
Proof.
  induction t as [|c t IH]; intros l ls E; cbn [split_lines] in E; [injection E as <- <-; exists []; auto|]. destruct ((c =? 10)%N || (c =? 59)%N) eqn:Ec.
  - injection E as <- <-. exists (c :: t). split; [reflexivity|]. right. exists c, t. split; [reflexivity|]. split; [apply sep_b; exact Ec|reflexivity].
  - destruct (split_lines t) as [|l' ls'] eqn:Et; [exfalso; exact (split_nonempty t Et)|]. injection E as <- <-. destruct (IH l' ls' eq_refl) as (r & -> & H). exists r. split; [reflexivity|exact H].
Qed.
Lemma split_at ls1 : forall t l ls2, split_lines t = ls1 ++ l :: ls2 ->
  exists p r, t = p ++ l ++ r /\ ((ls1 = [] /\ p = []) \/ exists p' s, p = p' ++ [s] /\ sep s /\ split_lines p' = ls1) /\ (r = [] \/ exists s r', r = s :: r' /\ sep s).
Proof.
  induction ls1 as [|l1 ls1 IH]; intros t l ls2 E; cbn [app] in E; destruct (split_first t _ _ E) as (r & -> & H).
  - exists [], r. split; [reflexivity|]. split; [left; auto|]. destruct H as [[_ ->]|(s & r' & -> & Hs & _)]; [auto|right; eauto].
  - destruct H as [[H _]|(s & r' & -> & Hs & H)]; [destruct ls1; discriminate H|]. destruct (IH r' l ls2 H) as (p & r & -> & Hp & Hr).
    assert (Hl : one_line l1). { pose proof (split_lines_one (l1 ++ s :: p ++ l ++ r)) as G. rewrite E in G. inversion G; assumption. }
    exists (l1 ++ s :: p), r. split; [rewrite <- app_assoc; reflexivity|]. split; [right|exact Hr]. destruct Hp as [[-> ->]|(p' & s' & -> & Hs' & Hp')].
    + exists l1, s. split; [reflexivity|]. split; [exact Hs|]. apply split_one. exact Hl.
    + exists (l1 ++ s :: p'), s'. split; [rewrite <- app_assoc; reflexivity|]. split; [exact Hs'|]. rewrite split_app by exact Hs. rewrite (split_one l1 Hl), Hp'. reflexivity.
Qed.
Lemma replace_empty from to n : replace_from from to n [] = [].
Proof. destruct n; reflexivity. Qed.
Lemma substitute_empty m : substitute m [] = [].
Proof. unfold substitute. induction m as [|[k v] m IH]; [reflexivity|]. cbn [fold_left fst snd]. unfold str_replace. rewrite replace_empty. exact IH. Qed.
Lemma blank_line u q i : wordlist (q_options q) = None -> parse_query_line u q i [] = Ok (Parsed q).
Proof. intros H. unfold parse_query_line. rewrite H, substitute_empty. destruct (blank_parse [] (Forall_nil _)) as (x1 & ->). reflexivity. Qed.

Definition lines_are (P : text -> Prop) (u : unicode) (t : text) : Prop :=
  forall p l r q l', t = p ++ l ++ r -> (p = [] \/ exists p' s, p = p' ++ [s] /\ sep s) -> one_line l -> (r = [] \/ exists s r', r = s :: r' /\ sep s) ->
     parse_query u p = Ok (Parsed q) -> wordlist (q_options q) = None -> expanded (macros q) l l' -> P l'.
Lemma lines_read P u t : lines_are P u t -> Forall P (read_lines u no_query 0 (split_lines t)).
Proof.
  intros H. apply Forall_forall. intros x Hx. destruct (read_in _ _ _ _ _ Hx) as (ls1 & l & ls2 & q & E & Eq & Hw & ->).
  assert (Hl : one_line l). { pose proof (split_lines_one t) as G. rewrite E in G. apply Forall_app in G. destruct G as [_ G]. inversion G; assumption. }
  destruct (split_at ls1 t l ls2 E) as (p & r & Et & Hp & Hr).
  destruct (finish_ok q (lines_banks u ls1 no_query 0 q (Forall_nil _) Eq)) as (q' & Eq').
  assert (Ep : parse_query u p = Ok (Parsed q')).
  { destruct Hp as [[-> ->]|(p' & s & -> & Hs & Hp')].
    - cbn [parse_query_lines] in Eq. injection Eq as <-. rewrite parse_query_eq. change (split_lines []) with [@nil N]. cbn [parse_query_lines]. rewrite blank_line by reflexivity. cbn [bind]. exact Eq'.
    - rewrite <- Hp' in Eq. rewrite (append_line u p' s [] q Hs (Forall_nil _) Eq). rewrite blank_line by exact Hw. cbn [bind]. exact Eq'. }
  destruct (finish_inv q q' Eq') as (Hm & _ & Ho). apply (H p l r q' (substitute (macros q) l)); try assumption.
  - destruct Hp as [[_ ->]|(p' & s & -> & Hs & _)]; [auto|right; eauto].
  - rewrite Ho. cbn [set_wordlist wordlist]. rewrite Hw. reflexivity.
  - rewrite <- Hm. apply substitute_spec. eapply parse_named. exact Ep.
Qed.
Definition fitting (u : unicode) (t : text) : Prop := lines_are numbers_fit u t.
Lemma fitting_lines u t : fitting u t -> Forall small_numbers (read_lines u no_query 0 (split_lines t)).
Proof. intros H. eapply Forall_impl; [|exact (lines_read numbers_fit u t H)]. intros x. apply fit_small. Qed.
Lemma panics_by_numbers u t : fitting u t ->
  exists r, parse_query u t = Ok r /\ match r with Parsed _ => True | ParseError n => 1 <= n <= length (split_lines t) end.
Proof. intros H. apply parse_query_total. apply fitting_lines. exact H. Qed.
