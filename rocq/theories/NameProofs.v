(** What names and values of macros consist of. The names hold no slash and no dash: a comment cannot begin
    inside one. *)
From Coq Require Import String.
From Verif Require Export MacroProofs.
Local Open Scope list_scope.

Definition mark (c : N) : Prop := c = 47%N \/ c = 45%N.
Definition macro_letter (c : N) : Prop := (97 <= c <= 122 \/ 65 <= c <= 90)%N.
Definition name_symbol (c : N) : Prop := macro_letter c \/ (48 <= c <= 57 \/ c = 95 \/ c = 32)%N.
Definition unmarked (t : text) : Prop := Forall name_symbol t.
Definition name_shape (t : text) : Prop := exists c t', t = c :: t' /\ macro_letter c /\ Forall name_symbol t'.
Definition value_shape (t : text) : Prop := Forall (fun c => (32 <= c <= 126)%N) t.
Definition name_char_exp : pexp := choice ASCII_ALPHA [ASCII_DIGIT; tok "_"].
Lemma pbind_match r k t ns : pbind r k = PMatch t ns -> exists t1 n1, r = PMatch t1 n1 /\ k t1 n1 = PMatch t ns.
Proof. destruct r; cbn; try discriminate. eauto. Qed.
Lemma range_run w at_ lo hi t r ns : prun w at_ (PRange lo hi) t = PMatch r ns -> exists c, t = c :: r /\ in_range lo hi c = true.
Proof. rewrite run_range. destruct t as [|c t]; [discriminate|]. destruct (in_range lo hi c) eqn:E; [|discriminate]. intros [= -> _]. eauto. Qed.
Lemma range_bounds lo hi c : in_range lo hi c = true -> (lo <= c <= hi)%N.
Proof. unfold in_range. rewrite andb_true_iff, !N.leb_le. lia. Qed.
Lemma alpha_run w at_ t r ns : prun w at_ ASCII_ALPHA t = PMatch r ns -> exists c, t = c :: r /\ macro_letter c.
Proof.
  unfold ASCII_ALPHA. rewrite run_alt by reflexivity. intros H. destruct (prun w at_ (PRange 97 122) t) as [| |r1 n1] eqn:E.
  - apply range_run in H. destruct H as (c & -> & H). exists c. split; [reflexivity|]. apply range_bounds in H. unfold macro_letter. lia.
  - discriminate.
  - rewrite H in E. apply range_run in E. destruct E as (c & -> & E). exists c. split; [reflexivity|]. apply range_bounds in E. unfold macro_letter. lia.
Qed.
Lemma name_char_run w at_ t r ns : prun w at_ name_char_exp t = PMatch r ns -> exists c, t = c :: r /\ name_symbol c.
Proof.
  unfold name_char_exp. cbn [choice]. rewrite run_alt by reflexivity. intros H. destruct (prun w at_ ASCII_ALPHA t) as [| |r1 n1] eqn:E; [|discriminate|rewrite H in E; apply alpha_run in E; destruct E as (c & E & Hc); exists c; split; [exact E|left; exact Hc]].
  rewrite run_alt in H by reflexivity. destruct (prun w at_ ASCII_DIGIT t) as [| |r1 n1] eqn:E2; [|discriminate|].
  - unfold tok in H. rewrite run_str in H. change (str "_") with [95%N] in H. destruct t as [|c t]; [discriminate|]. cbn [strip] in H. destruct (N.eqb_spec 95 c) as [<-|]; [|discriminate]. injection H as <- _. exists 95%N. split; [reflexivity|]. unfold name_symbol. lia.
  - rewrite H in E2. apply range_run in E2. destruct E2 as (c & -> & E2). exists c. split; [reflexivity|]. apply range_bounds in E2. unfold name_symbol. lia.
Qed.
Lemma drop_unmarked t : exists p, t = p ++ drop_spaces t /\ unmarked p.
Proof.
  induction t as [|a t (p & E & H)]; [exists []; split; [reflexivity|constructor]|]. cbn [drop_spaces]. destruct (N.eqb_spec a 32) as [->|]; [|exists []; split; [reflexivity|constructor]].
  exists (32%N :: p). split; [cbn [app]; congruence|]. constructor; [unfold name_symbol; lia|exact H].
Qed.
Lemma skip_unmarked t : skip_text t = [] \/ exists p, t = p ++ skip_text t /\ unmarked p.
Proof. unfold skip_text. destruct (comment_at (drop_spaces t)); [left; reflexivity|right; apply drop_unmarked]. Qed.
Lemma name_step w t r ns : prun w false name_char_exp (skip_text t) = PMatch r ns -> exists p, t = p ++ r /\ unmarked p /\ length r < length t.
Proof.
  intros H. apply name_char_run in H. destruct H as (c & E & Hc). destruct (skip_unmarked t) as [E0|(p & Ep & Hp)]; [rewrite E0 in E; discriminate|].
  rewrite E in Ep. exists (p ++ [c]). rewrite <- app_assoc. split; [exact Ep|]. split; [apply Forall_app; split; [assumption|constructor; [assumption|constructor]]|]. rewrite Ep, app_length. cbn [length]. lia.
Qed.
Lemma name_more_run w : forall n t r ns, length t <= n -> prun w false (PMore name_char_exp) t = PMatch r ns -> exists p, t = p ++ r /\ unmarked p.
Proof.
  induction n as [|n IH]; intros t r ns Hn H.
  - destruct t; [|cbn in Hn; lia]. rewrite more_eq in H by reflexivity. change (skipped false []) with ([] : text) in H. destruct (prun w false name_char_exp []) as [| |r1 n1] eqn:E; [injection H as <- _; exists []; split; [reflexivity|constructor]|discriminate|].
    apply name_char_run in E. destruct E as (c & E & _). discriminate.
  - rewrite more_eq in H by reflexivity. cbn [skipped] in H. destruct (prun w false name_char_exp (skip_text t)) as [| |r1 n1] eqn:E; [injection H as <- _; exists []; split; [reflexivity|constructor]|discriminate|].
    apply name_step in E. destruct E as (p & -> & Hp & Hl). apply pbind_match in H. destruct H as (r2 & n2 & H & G). injection G as <- _. apply IH in H; [|lia]. destruct H as (p' & -> & Hp'). exists (p ++ p'). rewrite app_assoc. split; [reflexivity|]. apply Forall_app. split; assumption.
Qed.
Lemma name_run w t r ns : prun w false (PRule macro_name) t = PMatch r ns -> exists x n, ns = [Node macro_name x n] /\ (r = [] \/ name_shape x).
Proof.
  rewrite run_rule. cbn [body silent atomic orb]. fold name_char_exp. intros H. apply pbind_match in H. destruct H as (r1 & n1 & H & G). injection G as <- <-. do 2 eexists. split; [reflexivity|].
  rewrite seq_eq in H by reflexivity. apply pbind_match in H. destruct H as (r2 & n2 & H & G). apply pbind_match in G. destruct G as (r3 & n3 & G & F). injection F as <- _. cbn [skipped] in G.
  apply alpha_run in H. destruct H as (c & -> & Hc).
  assert (K : exists p, skip_text r2 = p ++ r3 /\ unmarked p).
  { rewrite run_rep in G by reflexivity. destruct (prun w false name_char_exp (skip_text r2)) as [| |r4 n4] eqn:E; [injection G as <- _; exists []; split; [reflexivity|constructor]|discriminate|].
    apply name_char_run in E. destruct E as (d & -> & Hd). apply pbind_match in G. destruct G as (r5 & n5 & G & F). injection F as <- _. eapply name_more_run in G; [|apply Nat.le_refl]. destruct G as (p & -> & Hp). exists (d :: p). split; [reflexivity|]. constructor; assumption. }
  destruct K as (p & K & Hp). destruct (skip_unmarked r2) as [E|(p0 & E & Hp0)].
  - left. rewrite E in K. symmetry in K. apply app_eq_nil in K. apply K.
  - right. rewrite K in E. replace (c :: r2) with ((c :: p0 ++ p) ++ r3) by (cbn [app]; rewrite <- app_assoc; congruence). rewrite consumed_app. exists c, (p0 ++ p). split; [reflexivity|]. split; [exact Hc|]. apply Forall_app. split; assumption.
Qed.
Lemma drop_value t : exists p, t = p ++ drop_spaces t /\ value_shape p.
Proof.
  induction t as [|a t (p & E & H)]; [exists []; split; [reflexivity|constructor]|]. cbn [drop_spaces]. destruct (N.eqb_spec a 32) as [->|]; [|exists []; split; [reflexivity|constructor]].
  exists (32%N :: p). split; [cbn [app]; congruence|]. constructor; [lia|exact H].
Qed.
Lemma value_more_run w : forall n t r ns, length t <= n -> prun w false (PMore (PRange 32 126)) t = PMatch r ns -> exists p, t = p ++ r /\ value_shape p.
Proof.
  induction n as [|n IH]; intros t r ns Hn H; rewrite more_eq in H by reflexivity; cbn [skipped] in H; (destruct (prun w false (PRange 32 126) (skip_text t)) as [| |r1 n1] eqn:E; [injection H as <- _; exists []; split; [reflexivity|constructor]|discriminate|]); apply range_run in E; destruct E as (c & E & Hc); apply range_bounds in Hc.
  - destruct t; [discriminate E|cbn in Hn; lia].
  - destruct (drop_value t) as (p & Ep & Hp). unfold skip_text in E. destruct (comment_at (drop_spaces t)); [discriminate E|]. rewrite E in Ep. apply pbind_match in H. destruct H as (r2 & n2 & H & G). injection G as <- _.
    apply IH in H; [|rewrite Ep, app_length in Hn; cbn [length] in Hn; lia]. destruct H as (p' & -> & Hp'). exists (p ++ c :: p'). rewrite <- app_assoc. split; [exact Ep|]. apply Forall_app. split; [exact Hp|]. constructor; assumption.
Qed.
Lemma value_run w t r ns : prun w false (PRule macro_value) t = PMatch r ns -> exists x n, ns = [Node macro_value x n] /\ value_shape x.
Proof.
  rewrite run_rule. cbn [body silent atomic orb]. intros H. apply pbind_match in H. destruct H as (r1 & n1 & H & G). injection G as <- <-. do 2 eexists. split; [reflexivity|].
  rewrite run_rep in H by reflexivity. destruct (prun w false (PRange 32 126) t) as [| |r4 n4] eqn:E; [injection H as <- _; change t with ([] ++ t) at 1; rewrite consumed_app; constructor|discriminate|].
  apply range_run in E. destruct E as (c & -> & Hc). apply range_bounds in Hc. apply pbind_match in H. destruct H as (r5 & n5 & H & F). injection F as <- _. eapply value_more_run in H; [|apply Nat.le_refl]. destruct H as (p & -> & Hp).
  change (c :: p ++ r5) with ((c :: p) ++ r5). rewrite consumed_app. constructor; assumption.
Qed.
Lemma one_node w r t x ns : silent r = false -> prun w false (PRule r) t = PMatch x ns -> exists y n, ns = [Node r y n].
Proof. intros Hs. rewrite run_rule, Hs. intros H. apply pbind_match in H. destruct H as (r1 & n1 & _ & G). injection G as <- <-. eauto. Qed.
Definition names_clear (p : node) : Prop := node_rule p = macro_define -> exists k v ks, map node_text (filter (fun p => is_rule macro_name p || is_rule macro_value p) (node_inner p)) = k :: v :: ks /\ name_shape k /\ value_shape v.
Lemma query_clear t x ns : parse_rule query t = PMatch x ns -> exists y p rest, ns = [Node query y (p :: rest)] /\ names_clear p.
Proof.
  rewrite parse_rule_run, run_rule. cbn [body silent atomic orb choice]. intros H. apply pbind_match in H. destruct H as (r1 & n1 & H & G). injection G as <- <-. set (w := length t) in *.
  assert (K : exists p rest, n1 = p :: rest /\ names_clear p); [|destruct K as (p & rest & -> & K); eauto].
  rewrite run_alt in H by reflexivity. destruct (prun w false (PRule pragma) t) as [| |r2 n2] eqn:E1; [clear E1|discriminate|].
  2: { injection H as <- <-. rewrite run_rule in E1. cbn [body silent atomic orb choice seqs] in E1. apply pbind_match in E1. destruct E1 as (r3 & n3 & E1 & G). injection G as <- <-.
       rewrite seq_eq in E1 by reflexivity. apply pbind_match in E1. destruct E1 as (r4 & n4 & E1 & G). rewrite run_soi in E1. destruct (length t =? w); [injection E1 as <- <-|discriminate]. apply pbind_match in G. destruct G as (r5 & n5 & G & F). injection F as <- <-. cbn [app].
       rewrite seq_eq in G by reflexivity. apply pbind_match in G. destruct G as (r6 & n6 & G & F). apply pbind_match in F. destruct F as (r7 & n7 & _ & F). injection F as <- <-.
       assert (K : exists r y n, n6 = [Node r y n] /\ r <> macro_define).
       { repeat (rewrite run_alt in G by reflexivity; match type of G with match prun ?w ?a (PRule ?r) ?t with _ => _ end = _ => let E := fresh in destruct (prun w a (PRule r) t) as [| |? ?] eqn:E; [clear E|discriminate|rewrite G in E; apply one_node in E; [|reflexivity]; destruct E as (y & n & ->); do 3 eexists; split; [reflexivity|discriminate]] end).
         apply one_node in G; [|reflexivity]. destruct G as (y & n & ->). do 3 eexists. split; [reflexivity|discriminate]. }
       destruct K as (r & y & n & -> & Hr). exists (Node r y n), n7. split; [reflexivity|]. intros X. exact (False_ind _ (Hr X)). }
  rewrite run_alt in H by reflexivity. destruct (prun w false (PRule macro_define) t) as [| |r2 n2] eqn:E1; [clear E1|discriminate|].
  - rewrite run_alt in H by reflexivity. destruct (prun w false (PRule r_expression) t) as [| |r2 n2] eqn:E1; [clear E1|discriminate|].
    + rewrite run_rule in H. cbn [body silent atomic orb] in H. apply pbind_match in H. destruct H as (r3 & n3 & H & G). injection G as <- <-. rewrite seq_eq in H by reflexivity. apply pbind_match in H. destruct H as (r4 & n4 & H & G). rewrite run_soi in H. destruct (length t =? w); [injection H as <- <-|discriminate]. apply pbind_match in G. destruct G as (r5 & n5 & G & F). injection F as <- <-.
      rewrite run_eoi in G. destruct (skipped false t); [injection G as <- <-|discriminate]. eexists _, []. split; [reflexivity|]. intros X. discriminate X.
    + injection H as <- <-. apply one_node in E1; [|reflexivity]. destruct E1 as (y & n & ->). eexists _, []. split; [reflexivity|]. intros X. discriminate X.
  - injection H as <- <-. rewrite run_rule in E1. cbn [body silent atomic orb seqs] in E1. apply pbind_match in E1. destruct E1 as (r3 & n3 & E1 & G). injection G as <- <-. eexists _, []. split; [reflexivity|]. intros _. cbn [node_inner].
    rewrite seq_eq in E1 by reflexivity. apply pbind_match in E1. destruct E1 as (r4 & n4 & E1 & G). rewrite run_soi in E1. destruct (length t =? w); [injection E1 as <- <-|discriminate]. apply pbind_match in G. destruct G as (r5 & n5 & G & F). injection F as <- <-. cbn [app].
    rewrite seq_eq in G by reflexivity. apply pbind_match in G. destruct G as (r6 & n6 & G & F). apply pbind_match in F. destruct F as (r7 & n7 & F & F2). injection F2 as <- <-.
    apply name_run in G. destruct G as (y & n & -> & Hy).
    rewrite seq_eq in F by reflexivity. apply pbind_match in F. destruct F as (r8 & n8 & F & F2). unfold tok in F. rewrite run_str in F.
    destruct Hy as [->|Hy]; [discriminate F|]. destruct (strip (str "=") (skipped false r6)) as [r9|]; [injection F as <- <-|discriminate F]. apply pbind_match in F2. destruct F2 as (r10 & n10 & F & F2). injection F2 as <- <-.
    rewrite seq_eq in F by reflexivity. apply pbind_match in F. destruct F as (r11 & n11 & F & F2). apply pbind_match in F2. destruct F2 as (r12 & n12 & _ & F2). injection F2 as <- <-. apply value_run in F. destruct F as (z & n' & -> & Hz).
    cbn [app filter]. change (is_rule macro_name (Node macro_name y n) || is_rule macro_value (Node macro_name y n)) with true. change (is_rule macro_name (Node macro_value z n') || is_rule macro_value (Node macro_value z n')) with true. cbn [map node_text]. do 3 eexists. split; [reflexivity|]. split; assumption.
Qed.
Definition clear (m : list (text * text)) : Prop := Forall (fun p => name_shape (fst p) /\ value_shape (snd p)) m.
Lemma insert_clear k v m : name_shape k -> value_shape v -> clear m -> clear (map_insert k v m).
Proof.
  intros Hk Hv. induction 1 as [|[k' v'] m Hp Hm IH]; cbn [map_insert]; [constructor; [split; assumption|constructor]|]. destruct (text_eqb k k'); constructor; try assumption. destruct Hp as [Hp _]. cbn [fst snd] in *. split; assumption.
Qed.
Lemma lines_clear u ls : forall q i q', clear (macros q) -> parse_query_lines u q i ls = Ok (Parsed q') -> clear (macros q').
Proof.
  induction ls as [|l ls IH]; intros q i q' Hq E; cbn [parse_query_lines] in E; [injection E as <-; exact Hq|].
  destruct (parse_query_line u q i l) as [[q1|n]| | |] eqn:E1; try discriminate. cbn [bind] in E. apply (IH q1 (S i) q'); [|exact E]. clear E IH.
  unfold parse_query_line in E1. destruct (wordlist (q_options q)); [destruct (text_eqb (trim l) []); injection E1 as <-; exact Hq|].
  destruct (parse_rule query (substitute (macros q) l)) as [| |rest ns] eqn:E; try discriminate. apply query_clear in E. destruct E as (y & p & r & -> & He). cbn [node_inner] in E1.
  destruct (add_line q p) as [q2| | |] eqn:Ea; try discriminate. cbn [bind] in E1. injection E1 as <-. unfold add_line in Ea. destruct (node_rule p) eqn:Er; try (injection Ea as <-; exact Hq).
  - destruct (parse_expression p); try discriminate. injection Ea as <-. exact Hq.
  - destruct (He Er) as (k & v & ks & Ek & Hk & Hv). rewrite Ek in Ea. cbn in Ea. injection Ea as <-. cbn [macros]. apply insert_clear; assumption.
Qed.
Lemma parse_clear u t q : parse_query u t = Ok (Parsed q) -> clear (macros q).
Proof. intros H. destruct (parse_inv _ _ _ H) as (q0 & E & F). apply lines_clear in E; [|constructor]. destruct (finish_inv _ _ F) as (-> & _). exact E. Qed.
Lemma comments_after_macros u before l l' k c c' later q : Forall one_line before -> one_line l -> one_line c -> Forall one_line later ->
  parse_query u (unlines before) = Ok (Parsed q) -> wordlist (q_options q) = None ->
  k = 47%N \/ k = 45%N -> expanded (macros q) l l' -> expanded (macros q) c c' ->
  c' <> [] -> (forall p, l' <> p ++ [k] /\ l' <> p ++ [47; 47]%N /\ l' <> p ++ [45; 45]%N) ->
  parse_query u (unlines (before ++ (l ++ k :: k :: c) :: later)) = parse_query u (unlines (before ++ l :: later)).
Proof.
  intros Hb Hl Hc Ha Hq Hw Hk El Ec Hne He. apply (comment_after_macros u before l l' k c c' later q); try assumption.
  eapply Forall_impl; [|exact (parse_clear _ _ _ Hq)]. intros m [(c0 & t' & E & H1 & H2) _] Hin. destruct m as [m1 m2]; cbn [fst] in *; subst m1. destruct Hin as [->|Hin]; [unfold macro_letter in H1; lia|]. rewrite Forall_forall in H2. specialize (H2 k Hin). unfold name_symbol, macro_letter in H2. lia.
Qed.
