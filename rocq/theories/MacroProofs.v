(** Macro substitution. *)
From Verif Require Export LinesProofs.
Local Open Scope list_scope.

Lemma strip_self s t : strip s (s ++ t) = Some t.
Proof. induction s as [|a s IH]; [reflexivity|]. cbn [app strip]. rewrite N.eqb_refl. exact IH. Qed.
Lemma strip_iff s t r : strip s t = Some r <-> t = s ++ r.
Proof. split; [apply strip_app|intros ->; apply strip_self]. Qed.
Lemma drop_replace from to x : forall q, replace_from from to (length x) (x ++ q) = replace_from from to 0 q.
Proof. induction x as [|c x IH]; intros q; [reflexivity|]. cbn [length app replace_from]. apply IH. Qed.
Lemma replace_none from to t : (forall p q, t <> p ++ from ++ q) -> replace_from from to 0 t = t.
Proof.
  induction t as [|c t IH]; intros H; [reflexivity|]. cbn [replace_from]. destruct (strip from (c :: t)) as [r|] eqn:E; [apply strip_iff in E; destruct (H [] r E)|].
  rewrite IH; [reflexivity|]. intros p q ->. apply (H (c :: p) q). reflexivity.
Qed.
Lemma replace_first from to p : from <> [] -> forall q, (forall p' q', p ++ from ++ q = p' ++ from ++ q' -> length p <= length p') ->
  replace_from from to 0 (p ++ from ++ q) = p ++ to ++ replace_from from to 0 q.
Proof.
  intros Hn. induction p as [|c p IH]; intros q H.
  - cbn [app]. destruct from as [|a from]; [congruence|]. cbn [app replace_from]. change (a :: from ++ q) with ((a :: from) ++ q). rewrite strip_self. f_equal. replace (length (a :: from) - 1) with (length from) by (cbn [length]; lia). apply drop_replace.
  - cbn [app replace_from]. destruct (strip from (c :: p ++ from ++ q)) as [r|] eqn:E; [apply strip_iff in E; specialize (H [] r E); cbn in H; lia|]. f_equal. apply IH. intros p' q' E'. specialize (H (c :: p') q'). cbn [app length] in H. rewrite E' in H. specialize (H eq_refl). lia.
Qed.
Lemma find_first (from t : text) : (forall p q, t <> p ++ from ++ q) \/ exists p q, t = p ++ from ++ q /\ forall p' q', p ++ from ++ q = p' ++ from ++ q' -> length p <= length p'.
Proof.
  induction t as [|c t IH].
  - destruct from as [|a from]; [right; exists [], []; split; [reflexivity|cbn; lia]|]. left. intros p q H. destruct p; discriminate H.
  - destruct (strip from (c :: t)) as [r|] eqn:E; [apply strip_iff in E; right; exists [], r; split; [exact E|cbn; lia]|].
    destruct IH as [IH|(p & q & -> & IH)].
    + left. intros p q H. destruct p as [|a p]; [cbn [app] in H; apply strip_iff in H; congruence|]. injection H as _ H. exact (IH p q H).
    + right. exists (c :: p), q. split; [reflexivity|]. intros p' q' H. destruct p' as [|a p']; [cbn [app] in H; apply strip_iff in H; cbn [app] in E; congruence|]. injection H as _ H. apply IH in H. cbn [length]. lia.
Qed.
Lemma str_replace_spec from to : from <> [] -> forall t, rewritten from to t (str_replace from to t).
Proof.
  intros Hn t. remember (length t) as k eqn:Hk. assert (H : length t <= k) by lia. clear Hk. revert t H. induction k as [|k IH]; intros t H.
  - destruct t; [|cbn in H; lia]. apply rewritten_none. intros p q E. symmetry in E. apply app_eq_nil in E. destruct E as [_ E]. apply app_eq_nil in E. destruct E. congruence.
  - destruct (find_first from t) as [E|(p & q & -> & Hp)].
    + unfold str_replace. rewrite replace_none by exact E. apply rewritten_none. exact E.
    + unfold str_replace. rewrite replace_first by assumption. apply rewritten_first; [exact Hp|]. apply IH. rewrite !app_length in H. destruct from; [congruence|]. cbn [length] in H. lia.
Qed.
Definition named (m : list (text * text)) : Prop := Forall (fun p => fst p <> []) m.
Lemma substitute_spec m : named m -> forall t, expanded m t (substitute m t).
Proof.
  unfold substitute. induction 1 as [|[k v] m Hk _ IH]; intros t; [constructor|]. cbn [fold_left fst snd] in *. eapply expanded_cons; [apply str_replace_spec; exact Hk|apply IH].
Qed.
Lemma insert_named k v m : k <> [] -> named m -> named (map_insert k v m).
Proof. intros Hv. induction 1 as [|[k' v'] m Hp Hm IH]; cbn [map_insert]; [repeat constructor; exact Hv|]. destruct (text_eqb k k'); constructor; assumption. Qed.
Lemma lines_named u ls : forall q i q', named (macros q) -> parse_query_lines u q i ls = Ok (Parsed q') -> named (macros q').
Proof.
  induction ls as [|l ls IH]; intros q i q' Hq E; cbn [parse_query_lines] in E; [injection E as <-; exact Hq|].
  destruct (parse_query_line u q i l) as [[q1|n]| | |] eqn:E1; try discriminate. cbn [bind] in E. apply (IH q1 (S i) q'); [|exact E]. clear E IH.
  unfold parse_query_line in E1. destruct (wordlist (q_options q)); [destruct (text_eqb (trim l) []); injection E1 as <-; exact Hq|].
  destruct (parse_rule query (substitute (macros q) l)) as [| |rest ns] eqn:E; try discriminate. apply peg_yields in E. destruct E as (t' & E & Hy).
  destruct (query_effect _ _ Hy) as (p & r & -> & _ & He). cbn [node_inner] in E1.
  destruct (add_line q p) as [q2| | |] eqn:Ea; try discriminate. cbn [bind] in E1. injection E1 as <-. unfold add_line in Ea. destruct (node_rule p); try (injection Ea as <-; exact Hq).
  - destruct (parse_expression p); try discriminate. injection Ea as <-. exact Hq.
  - destruct (He eq_refl) as (k & v & Ek & _ & _ & Hk). rewrite Ek in Ea. cbn in Ea. injection Ea as <-. cbn [macros]. apply insert_named; assumption.
Qed.
Lemma parse_named u t q : parse_query u t = Ok (Parsed q) -> named (macros q).
Proof. intros H. destruct (parse_inv _ _ _ H) as (q0 & E & F). apply lines_named in E; [|constructor]. destruct (finish_inv _ _ F) as (-> & _). exact E. Qed.
(** the relation is a function *)
Lemma app_same_length {A} (a b c d : list A) : length a = length c -> a ++ b = c ++ d -> a = c /\ b = d.
Proof. revert c. induction a as [|x a IH]; intros [|y c] Hl E; try discriminate Hl; [auto|]. injection E as -> E. injection Hl as Hl. destruct (IH c Hl E) as [-> ->]. auto. Qed.
Lemma rewritten_fun from to t a : rewritten from to t a -> forall b, rewritten from to t b -> a = b.
Proof.
  induction 1 as [t Hn|p q r Hp _ IH]; intros b Hb.
  - inversion Hb as [t' H|p q r H1 H2]; subst; [reflexivity|]. destruct (Hn p q eq_refl).
  - inversion Hb as [t' H E|p' q' r' H1 H2 E]; subst; [destruct (H p q eq_refl)|].
    assert (Hl : length p = length p') by (apply Nat.le_antisymm; [eapply Hp; symmetry; exact E|eapply H1; exact E]).
    destruct (app_same_length p' (from ++ q') p (from ++ q) (eq_sym Hl) E) as [-> E']. apply app_inv_head in E'. subst q'. rewrite (IH r' H2). reflexivity.
Qed.
Lemma expanded_fun m t a : expanded m t a -> forall b, expanded m t b -> a = b.
Proof. induction 1 as [t|k v m t t1 t2 H1 _ IH]; intros b Hb; inversion Hb as [|k' v' m' t' t1' t2' G1 G2]; subst; [reflexivity|]. apply IH. rewrite (rewritten_fun _ _ _ _ H1 _ G1). exact G2. Qed.
Lemma compose_spec u t s l q l' : sep s -> one_line l -> parse_query u t = Ok (Parsed q) -> wordlist (q_options q) = None -> expanded (macros q) l l' -> numbers_fit l' ->
  match parse_query u l' with
  | Ok (Parsed q2) => exists q', parse_query u (t ++ s :: l) = Ok (Parsed q') /\
      q_expressions q' = q_expressions q ++ q_expressions q2 /\ q_options q' = override (q_options q) (q_options q2) /\
      match macros q2 with [] => macros q' = macros q | (k, v) :: _ => bind_macro (macros q) k v (macros q') end
  | Ok (ParseError n) => n = 1 /\ parse_query u (t ++ s :: l) = Ok (ParseError (length (split_lines t) + 1))
  | _ => False
  end.
Proof.
  intros Hs Hl Ht Hw He Hf. assert (E : l' = substitute (macros q) l) by (eapply expanded_fun; [exact He|]; apply substitute_spec; eapply parse_named; exact Ht). subst l'.
  apply compose; try assumption. apply fit_small. exact Hf.
Qed.

(** ** Comments below macros *)
Lemma strip_split k s : ~ In k s -> forall x y, strip s (x ++ k :: y) = match strip s x with Some r => Some (r ++ k :: y) | None => None end.
Proof.
  induction s as [|a s IH]; intros Hk x y; [reflexivity|]. destruct x as [|b x]; cbn [app strip].
  - destruct (N.eqb_spec a k) as [->|]; [destruct Hk; left; reflexivity|reflexivity].
  - destruct (N.eqb a b); [|reflexivity]. apply IH. intros H. apply Hk. right. exact H.
Qed.
Lemma strip_length s t r : strip s t = Some r -> length s <= length t.
Proof. intros H. apply strip_iff in H. subst t. rewrite app_length. lia. Qed.
Lemma replace_mark k from to : ~ In k from -> from <> [] -> forall x y n, n <= length x ->
  replace_from from to n (x ++ k :: y) = replace_from from to n x ++ k :: replace_from from to 0 y.
Proof.
  intros Hk Hn. induction x as [|c x IH]; intros y n Hl.
  - cbn [length] in Hl. assert (n = 0) by lia. subst n. cbn [app replace_from]. change (k :: y) with ([] ++ k :: y). rewrite (strip_split k from Hk).
    destruct from; [congruence|reflexivity].
  - cbn [app replace_from length] in *. destruct n as [|n]; [|apply IH; lia]. change (c :: x ++ k :: y) with ((c :: x) ++ k :: y). rewrite (strip_split k from Hk).
    destruct (strip from (c :: x)) as [r|] eqn:E.
    + apply strip_length in E. cbn [length] in E. rewrite IH by lia. rewrite app_assoc. reflexivity.
    + rewrite IH by lia. reflexivity.
Qed.
Lemma substitute_mark k m : Forall (fun p => fst p <> [] /\ ~ In k (fst p)) m -> forall x y, substitute m (x ++ k :: y) = substitute m x ++ k :: substitute m y.
Proof.
  unfold substitute. induction 1 as [|[f v] m [Hn Hk] _ IH]; intros x y; [reflexivity|]. cbn [fold_left fst snd] in *. unfold str_replace at 2 4 6. rewrite (replace_mark k f v Hk Hn x y 0) by lia. apply IH.
Qed.
Lemma comment_after_macros u before l l' k c c' later q : Forall one_line before -> one_line l -> one_line c -> Forall one_line later ->
  parse_query u (unlines before) = Ok (Parsed q) -> wordlist (q_options q) = None ->
  k = 47%N \/ k = 45%N -> Forall (fun m => ~ In k (fst m)) (macros q) -> expanded (macros q) l l' -> expanded (macros q) c c' ->
  c' <> [] -> (forall p, l' <> p ++ [k] /\ l' <> p ++ [47; 47]%N /\ l' <> p ++ [45; 45]%N) ->
  parse_query u (unlines (before ++ (l ++ k :: k :: c) :: later)) = parse_query u (unlines (before ++ l :: later)).
Proof.
  intros Hb Hl Hc Ha Hq Hw Hk Hm El Ec Hne He.
  assert (Nm : named (macros q)) by (eapply parse_named; exact Hq).
  assert (G : l' = substitute (macros q) l) by (eapply expanded_fun; [exact El|]; apply substitute_spec; exact Nm). subst l'.
  assert (G : c' = substitute (macros q) c) by (eapply expanded_fun; [exact Ec|]; apply substitute_spec; exact Nm). subst c'.
  assert (Hmk : Forall (fun p => fst p <> [] /\ ~ In k (fst p)) (macros q)) by (apply Forall_and; assumption).
  assert (Hlc : one_line (l ++ k :: k :: c)).
  { apply one_line_app. split; [exact Hl|]. assert (Hks : ~ sep k) by (intros [G|G]; destruct Hk as [H|H]; rewrite H in G; discriminate G). constructor; [exact Hks|]. constructor; [exact Hks|exact Hc]. }
  assert (S1 : split_lines (unlines (before ++ (l ++ k :: k :: c) :: later)) = before ++ (l ++ k :: k :: c) :: later) by (apply split_unlines; [apply Forall_app; split; [exact Hb|constructor; assumption]|destruct before; discriminate]).
  assert (S2 : split_lines (unlines (before ++ l :: later)) = before ++ l :: later) by (apply split_unlines; [apply Forall_app; split; [exact Hb|constructor; assumption]|destruct before; discriminate]).
  rewrite !parse_query_eq, S1, S2.
  rewrite !lines_app. destruct (parse_query_lines u no_query 0 before) as [[q0|n]| | |] eqn:E; cbn [bind]; try reflexivity.
  assert (Hq0 : macros q0 = macros q /\ wordlist (q_options q0) = None).
  { destruct before as [|b0 before].
    - cbn [parse_query_lines] in E; injection E as <-. change (unlines []) with ([] : text) in Hq. assert (Hnil : parse_query u [] = Ok (Parsed (mkQueryAst [] [] no_query_options))) by (vm_compute; reflexivity). rewrite Hnil in Hq. injection Hq as <-. split; reflexivity.
    - destruct (parse_inv _ _ _ Hq) as (q1 & E1 & F1). rewrite (split_unlines (b0 :: before)) in E1 by (auto; discriminate). rewrite E in E1. injection E1 as <-. destruct (finish_inv _ _ F1) as (Em & _ & Eo). split; [congruence|].
      rewrite Eo in Hw. cbn in Hw. destruct (wordlist (q_options q0)); [discriminate|reflexivity]. }
  destruct Hq0 as [Hm0 Hw0]. cbn [parse_query_lines].
  rewrite (comment_line_end u q0 (0 + length before) l (l ++ k :: k :: c) k (substitute (macros q) c) Hk Hne Hw0); [reflexivity| |].
  - rewrite Hm0. intros p a E1. split; [intros ->; exact (proj1 (He p) E1)|]. intros p' ->. rewrite <- app_assoc in E1. split; intros ->; [exact (proj1 (proj2 (He p')) E1)|exact (proj2 (proj2 (He p')) E1)].
  - rewrite Hm0. rewrite (substitute_mark k _ Hmk). change (k :: c) with ([] ++ k :: c). rewrite (substitute_mark k _ Hmk). 
    assert (Z : forall m, substitute m [] = []) by (clear; unfold substitute; induction m; [reflexivity|exact IHm]). rewrite Z. reflexivity.
Qed.
