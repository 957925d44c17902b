(** Written patterns are parsed as what they are: the induction. *)
From Coq Require Import String.
From Verif Require Export SyntaxProofs2.
Local Open Scope list_scope.

(** ** The tree of a pattern *)
Definition op_rule (o : op) : rule := match o with OSubstring => substring | OSubset => r_subset | OSuperset => r_superset end.
Definition branches_ast (bs : list (list ast)) : ast :=
  match bs with [b] => Sequence b | _ => Alternatives (map Sequence bs) end.
Fixpoint tree (p : pat) : ast :=
  match p with
  | Symbol s => CharClass (charset_of s)
  | Dot => CharClass LETTERS
  | Length n => Sequence [Repetition (CharClass LETTERS) n (Some n); CharClass (charset_of WORD_END)]
  | Class neg items => CharClass (class_charset neg (map item_of items))
  | Block k bank => Anagram k bank
  | Group bs => branches_ast (map (fun b => map tree b) bs)
  | Operator o ts => operator_ast (op_rule o) (map tree ts)
  | Repeated p l m => Repetition (tree p) l m
  end.

(** ** Repetition in the grammar *)
Lemma rep_hits w a t t1 n ns : fine (PRep a) = true -> prun w false (PRep a) t = PMatch t1 (n :: ns) -> exists t2 ns2, prun w false a t = PMatch t2 ns2.
Proof. intros F E. rewrite run_rep in E by exact F. destruct (prun w false a t) as [| |t2 ns2]; [discriminate E|discriminate E|eauto]. Qed.
Lemma rep_more w a t t1 n ns : fine (PRep a) = true -> prun w false (PRep a) (skip_text t) = PMatch t1 (n :: ns) -> prun w false (PMore a) t = PMatch t1 (n :: ns).
Proof. intros F E. destruct (rep_hits w a _ _ _ _ F E) as (t2 & ns2 & H). rewrite (more_rep w a t t2 ns2 F H). exact E. Qed.
Lemma rep_plus w a t t1 n ns : fine (PPlus a) = true -> fine (PRep a) = true -> prun w false (PRep a) t = PMatch t1 (n :: ns) -> exists t2, prun w false (PPlus a) t = PMatch t2 (n :: ns) /\ skip_text t2 = skip_text t1.
Proof.
  intros F F2 E. rewrite run_rep in E by exact F2. unfold PPlus. rewrite seq_eq by exact F. destruct (prun w false a t) as [| |t3 ns3]; [discriminate E|discriminate E|]. cbn [pbind skipped].
  rewrite more_eq in E by exact F2. cbn [skipped] in E. rewrite run_rep by exact F2. destruct (prun w false a (skip_text t3)) as [| |t4 ns4]; cbn [pbind] in *.
  - injection E as E1 E2. exists (skip_text t3). split; [f_equal; exact E2|]. rewrite skip_idem, E1. reflexivity.
  - discriminate E.
  - destruct (prun w false (PMore a) t4) as [| |t5 ns5]; cbn [pbind] in *; try discriminate E. injection E as E1 E2. exists t5. split; [f_equal; exact E2|]. rewrite E1. reflexivity.
Qed.

(** ** What may follow *)
Definition follows (p : pat) (rest : text) : Prop :=
  match p with
  | Repeated _ _ _ => True
  | Length _ => no_digit rest /\ no_postfix (skip_text rest)
  | _ => no_postfix (skip_text rest)
  end.
Lemma stops_no_digit t : stops t -> no_digit t.
Proof.
  unfold stops, no_digit. destruct t as [|c t]; [auto|]. intros H. destruct (is_digit c) eqn:E; [|reflexivity]. exfalso. apply digit_range in E. rewrite skip_solid in H by (unfold solid; lia). lia.
Qed.
Lemma starts_postfix t r : starts t -> no_postfix (t ++ r).
Proof. intros (c & t' & -> & H). cbn [app no_postfix]. unfold starter, ascii_letter in H. rewrite digit_range in H. lia. Qed.
Lemma spaces_no_digit sp t : spaces sp -> sp <> [] -> no_digit (sp ++ t).
Proof. intros H Hn. destruct H as [|c sp -> _]; [congruence|]. reflexivity. Qed.
Lemma follows_stop p sp rest : spaces sp -> stops rest -> follows p (sp ++ rest).
Proof.
  intros Hs Hr. assert (H : no_postfix (skip_text (sp ++ rest))) by (rewrite skip_spaces by exact Hs; apply stops_postfix; exact Hr).
  destruct p; cbn [follows]; auto. split; [|exact H]. destruct sp as [|c sp]; [apply stops_no_digit; exact Hr|apply spaces_no_digit; [exact Hs|discriminate]].
Qed.
Lemma follows_next p sp t rest : spaces sp -> starts t -> apart p sp t -> follows p (sp ++ t ++ rest).
Proof.
  intros Hs Ht Ha. assert (H : no_postfix (skip_text (sp ++ t ++ rest))) by (rewrite skip_spaces by exact Hs; rewrite skip_starts by exact Ht; apply starts_postfix; exact Ht).
  destruct p; cbn [follows apart] in *; auto. split; [|exact H]. destruct Ha as [Ha|Ha]; [apply spaces_no_digit; assumption|]. destruct sp as [|c sp]; [|apply spaces_no_digit; [exact Hs|discriminate]].
  destruct Ht as (c & t' & -> & _). cbn [app no_digit]. apply (Ha c t'). reflexivity.
Qed.

(** ** The invariant *)
Definition runs_as (part : pexp) (p : pat) (t : text) : Prop :=
  forall w rest, follows p rest -> exists n, prun w false part (t ++ rest) = PMatch rest [n] /\ parse_term n = Ok (Some (tree p)).
Definition Pp (p : pat) (t : text) : Prop :=
  starts t /\
  (unrepeated p -> forall w rest, match p with Length _ => no_digit rest | _ => True end ->
     exists n, prun w false (PRule term) (t ++ rest) = PMatch rest [n] /\ parse_term n = Ok (Some (tree p))) /\
  runs_as seq_part p t.
Definition stop_part (part : pexp) : Prop := forall w rest, stops rest -> prun w false part (skip_text rest) = PFail.
Definition Pps (ps : list pat) (t : text) : Prop :=
  starts t /\ ps <> [] /\ forall part, fine (PRep part) = true -> stop_part part -> part = seq_part \/ part = PRule term /\ Forall unrepeated ps ->
  forall w rest, stops rest -> exists ns t1, prun w false (PRep part) (t ++ rest) = PMatch t1 ns /\ skip_text t1 = skip_text rest /\ parsed_terms ns (map tree ps).
Definition bar : pexp := PSeq (tok "|") (PRule sequence).
Definition Pbs (bs : list (list pat)) (t : text) : Prop :=
  starts t /\ bs <> [] /\ forall w rest, stops rest -> head_not 124 (skip_text rest) ->
  (exists n t1, prun w false (PRule subexpression) (t ++ rest) = PMatch t1 [n] /\ skip_text t1 = skip_text rest /\ parse_term n = Ok (Some (tree (Group bs))) /\
     is_rule sequence n || is_rule alternatives n = true) /\
  (forall sp, spaces sp -> exists ns t1, prun w false (PRep bar) (124%N :: sp ++ t ++ rest) = PMatch t1 ns /\ skip_text t1 = skip_text rest /\
     parsed_terms ns (map (fun b => Sequence (map tree b)) bs)).

Lemma term_part p t : (unrepeated p -> forall w rest, match p with Length _ => no_digit rest | _ => True end ->
     exists n, prun w false (PRule term) (t ++ rest) = PMatch rest [n] /\ parse_term n = Ok (Some (tree p))) -> unrepeated p -> runs_as seq_part p t.
Proof.
  intros H Hu w rest Hf. assert (Hn : no_postfix (skip_text rest)) by (destruct p; cbn [follows unrepeated] in *; tauto).
  assert (Hd : match p with Length _ => no_digit rest | _ => True end) by (destruct p; cbn [follows] in *; tauto).
  destruct (H Hu w rest Hd) as (n & E & Hp). exists n. split; [|exact Hp]. unfold seq_part. rewrite run_alt by reflexivity. rewrite (term_once w false _ _ _ E Hn). exact E.
Qed.
Lemma unrepeated_part p t : starts t -> (forall w rest, match p with Length _ => no_digit rest | _ => True end ->
     exists n, prun w false (PRule term) (t ++ rest) = PMatch rest [n] /\ parse_term n = Ok (Some (tree p))) -> unrepeated p -> Pp p t.
Proof. intros Hs H Hu. split; [exact Hs|]. split; [intros _; exact H|]. apply term_part; [intros _; exact H|exact Hu]. Qed.
Lemma seq_stop : stop_part seq_part.
Proof. intros w rest H. unfold stops in H. destruct (skip_text rest) as [|c t']; [apply empty_part|apply stop_fails; exact H]. Qed.
Lemma term_stop : stop_part (PRule term).
Proof. intros w rest H. unfold stops in H. destruct (skip_text rest) as [|c t']; [apply stuck; reflexivity|apply stop_term; exact H]. Qed.
Lemma bar_stop w rest : head_not 124 (skip_text rest) -> prun w false bar (skip_text rest) = PFail.
Proof. intros H. unfold bar. rewrite seq_eq by reflexivity. unfold tok. change (str "|") with [124%N]. rewrite tok_head by exact H. reflexivity. Qed.

(** a sequence *)
Lemma parts_sequence ps t w rest : Pps ps t -> stops rest ->
  exists n t1, prun w false (PRule sequence) (t ++ rest) = PMatch t1 [n] /\ skip_text t1 = skip_text rest /\ parse_term n = Ok (Some (Sequence (map tree ps))) /\ is_rule sequence n = true.
Proof.
  intros (_ & Hn & H) Hr. destruct (H seq_part eq_refl seq_stop (or_introl eq_refl) w rest Hr) as (ns & t1 & E & Es & Hp).
  destruct ns as [|n0 ns]; [destruct ps; [congruence|inversion Hp]|].
  destruct (rep_plus w seq_part _ _ _ _ eq_refl eq_refl E) as (t2 & E2 & Es2). eexists. exists t2. split; [|split; [congruence|]].
  - apply loud_rule; [reflexivity|]. cbn [atomic body]. fold seq_part. exact E2.
  - split; [|reflexivity]. apply terms_eq in Hp. unfold parse_terms in Hp. cbn [parse_term] in *. rewrite Hp. reflexivity.
Qed.
Lemma stops_bar t : stops (124%N :: t).
Proof. unfold stops. rewrite skip_solid by (unfold solid; lia). auto. Qed.

(** ** Sequences and branches *)
Lemma parts_one p t sp : Pp p t -> spaces sp -> Pps [p] (t ++ sp).
Proof.
  intros (Hs & Ht & Hq) Hsp. split; [destruct Hs as (c & t' & -> & Hc); exists c, (t' ++ sp); auto|]. split; [discriminate|].
  intros part F Hst Hpart w rest Hr.
  assert (E : exists n, prun w false part (t ++ sp ++ rest) = PMatch (sp ++ rest) [n] /\ parse_term n = Ok (Some (tree p))).
  { pose proof (follows_stop p sp rest Hsp Hr) as Hf. destruct Hpart as [-> |[-> Hu]]; [apply Hq; exact Hf|]. inversion Hu as [|? ? Hu1 _]; subst. apply Ht; [exact Hu1|]. destruct p; cbn [follows] in Hf; tauto. }
  destruct E as (n & E & Hp). exists [n], (sp ++ rest). split; [|split; [apply skip_spaces; exact Hsp|repeat constructor; exact Hp]].
  rewrite <- app_assoc. rewrite run_rep by exact F. rewrite E. rewrite more_eq by exact F. cbn [skipped]. rewrite skip_spaces by exact Hsp. rewrite (Hst w rest Hr). reflexivity.
Qed.
Lemma parts_more p t sp ps t' : Pp p t -> spaces sp -> apart p sp t' -> Pps ps t' -> Pps (p :: ps) (t ++ sp ++ t').
Proof.
  intros (Hs & Ht & Hq) Hsp Ha (Hs' & Hn & H). split; [destruct Hs as (c & r & -> & Hc); exists c, (r ++ sp ++ t'); auto|]. split; [discriminate|].
  intros part F Hst Hpart w rest Hr.
  assert (E : exists n, prun w false part (t ++ sp ++ t' ++ rest) = PMatch (sp ++ t' ++ rest) [n] /\ parse_term n = Ok (Some (tree p))).
  { pose proof (follows_next p sp t' rest Hsp Hs' Ha) as Hf. destruct Hpart as [-> |[-> Hu]]; [apply Hq; exact Hf|]. inversion Hu as [|? ? Hu1 _]; subst. apply Ht; [exact Hu1|]. destruct p; cbn [follows] in Hf; tauto. }
  destruct E as (n & E & Hp).
  assert (Hpart' : part = seq_part \/ part = PRule term /\ Forall unrepeated ps) by (destruct Hpart as [-> |[-> Hu]]; [auto|right; split; [reflexivity|inversion Hu; assumption]]).
  destruct (H part F Hst Hpart' w rest Hr) as (ns & t1 & E' & Es & Hps). destruct ns as [|n0 ns]; [destruct ps; [congruence|inversion Hps]|].
  exists (n :: n0 :: ns), t1. split; [|split; [exact Es|constructor; assumption]].
  rewrite <- !app_assoc. rewrite run_rep by exact F. rewrite E.
  rewrite (rep_more w part (sp ++ t' ++ rest) t1 n0 ns F); [reflexivity|]. rewrite skip_spaces by exact Hsp. rewrite skip_starts by exact Hs'. exact E'.
Qed.
Lemma branches_one ps t : Pps ps t -> Pbs [ps] t.
Proof.
  intros H. pose proof H as (Hs & Hn & _). split; [exact Hs|]. split; [discriminate|]. intros w rest Hr Hb. destruct (parts_sequence ps t w rest H Hr) as (n & t1 & E & Es & Hp & Hi). split.
  - exists n, t1. split; [|split; [exact Es|split; [exact Hp|rewrite Hi; reflexivity]]]. rewrite silent_rule by reflexivity. cbn [body]. rewrite run_alt by reflexivity.
    assert (A : prun w false (PRule alternatives) (t ++ rest) = PFail); [|rewrite A, E; reflexivity]. rewrite run_rule. cbn [body silent atomic orb]. rewrite seq_eq by reflexivity. rewrite E. cbn [pbind skipped]. rewrite Es.
    unfold PPlus. rewrite seq_eq by reflexivity. fold bar. rewrite bar_stop by exact Hb. reflexivity.
  - intros sp Hsp. exists [n], t1. split; [|split; [exact Es|repeat constructor; exact Hp]]. rewrite run_rep by reflexivity. unfold bar at 1. rewrite seq_eq by reflexivity.
    change (prun w false (tok "|") (124%N :: sp ++ t ++ rest)) with (PMatch (sp ++ t ++ rest) []). cbn [pbind skipped]. rewrite skip_spaces by exact Hsp. rewrite skip_starts by exact Hs. rewrite E. cbn [pbind app]. rewrite more_eq by reflexivity. cbn [skipped]. rewrite Es, bar_stop by exact Hb. reflexivity.
Qed.
Lemma branches_more ps t sp bs t' : Pps ps t -> spaces sp -> Pbs bs t' -> Pbs (ps :: bs) (t ++ str "|" ++ sp ++ t').
Proof.
  intros H Hsp (Hs' & Hbs & H'). pose proof H as (Hs & Hn & _). split; [destruct Hs as (c & r & -> & Hc); exists c, (r ++ str "|" ++ sp ++ t'); auto|]. split; [discriminate|]. intros w rest Hr Hb.
  change (str "|") with [124%N]. destruct (parts_sequence ps t w (124%N :: sp ++ t' ++ rest) H (stops_bar _)) as (n & t1 & E & Es & Hp & Hi). rewrite skip_solid in Es by (unfold solid; lia).
  destruct (H' w rest Hr Hb) as [_ Htail]. destruct (Htail sp Hsp) as (ns & t2 & E2 & Es2 & Hps). destruct ns as [|n0 ns]; [destruct bs; [congruence|inversion Hps]|].
  replace ((t ++ [124%N] ++ sp ++ t') ++ rest) with (t ++ 124%N :: sp ++ t' ++ rest) by (rewrite <- !app_assoc; reflexivity). split.
  - destruct (rep_plus w bar _ _ _ _ eq_refl eq_refl E2) as (t3 & E3 & Es3). eexists. exists t3.
    assert (A : prun w false (PRule alternatives) (t ++ 124%N :: sp ++ t' ++ rest) = PMatch t3 [Node alternatives (consumed (t ++ 124%N :: sp ++ t' ++ rest) t3) (n :: n0 :: ns)]).
    { apply loud_rule; [reflexivity|]. cbn [atomic body]. fold bar. rewrite seq_eq by reflexivity. rewrite E. cbn [pbind skipped]. rewrite Es, E3. reflexivity. }
    split; [rewrite silent_rule by reflexivity; cbn [body]; rewrite run_alt by reflexivity; rewrite A; reflexivity|]. split; [congruence|]. split; [|reflexivity].
    pose proof (Forall2_cons _ _ Hp Hps : parsed_terms (n :: n0 :: ns) (Sequence (map tree ps) :: map (fun b => Sequence (map tree b)) bs)) as Ht. apply terms_eq in Ht. unfold parse_terms in Ht. cbn [parse_term]. rewrite Ht. cbn [bind tree map branches_ast].
    destruct bs as [|b bs]; [congruence|]. cbn [map]. rewrite map_map. reflexivity.
  - intros sp' Hsp'. exists (n :: n0 :: ns), t2. split; [|split; [exact Es2|constructor; assumption]]. rewrite run_rep by reflexivity. unfold bar at 1. rewrite seq_eq by reflexivity.
    change (prun w false (tok "|") (124%N :: sp' ++ ?x)) with (PMatch (sp' ++ x) []). cbn [pbind skipped]. rewrite skip_spaces by exact Hsp'. rewrite skip_starts by exact Hs. rewrite E. cbn [pbind app].
    rewrite (rep_more w bar t1 t2 n0 ns eq_refl) by (rewrite Es; exact E2). reflexivity.
Qed.

(** ** Groups and operators *)
Lemma open_runs w t : prun w false (tok "(") (40%N :: t) = PMatch t [].
Proof. apply open_bracket. Qed.
Lemma stops_char c t : c = 41%N \/ c = 33%N \/ c = 124%N \/ c = 58%N -> stops (c :: t).
Proof. intros H. unfold stops. rewrite skip_solid by (unfold solid; lia). exact H. Qed.
Lemma head_open w t l : l = [class; dot] -> firsts w (40%N :: t) (l ++ skipn 2 term_rules) = firsts w (40%N :: t) (skipn 2 term_rules).
Proof. intros ->. apply firsts_open. intros r' Hr. cbn [In] in Hr. repeat (destruct Hr as [<-|Hr]; [cbn [opener]; eexists; split; [reflexivity|discriminate]|]). destruct Hr. Qed.
Lemma starts_open t : starts (40%N :: t).
Proof. exists 40%N, t. split; [reflexivity|]. unfold starter. auto 10. Qed.
Lemma group_pp bs sp t : spaces sp -> Pbs bs t -> Pp (Group bs) (str "(" ++ sp ++ t ++ str ")").
Proof.
  intros Hsp (Hs & _ & H). apply unrepeated_part; [apply starts_open| |exact I]. intros w rest _.
  destruct (H w (41%N :: rest) (stops_char 41 rest ltac:(auto))) as [(n & t1 & E & Es & Hp & _) _]; [rewrite skip_solid by (unfold solid; lia); cbn [head_not]; discriminate|]. rewrite skip_solid in Es by (unfold solid; lia).
  exists n. split; [|exact Hp]. change (str "(") with [40%N]. change (str ")") with [41%N]. rewrite <- !app_assoc. cbn [app]. rewrite run_term. change term_rules with ([class; dot] ++ skipn 2 term_rules). rewrite head_open by reflexivity. cbn [skipn term_rules].
  apply firsts_hit. rewrite silent_rule by reflexivity. cbn [body seqs]. rewrite seq_eq by reflexivity. rewrite open_runs. cbn [pbind skipped]. rewrite skip_spaces by exact Hsp. rewrite skip_starts by exact Hs. rewrite seq_eq by reflexivity. rewrite E. cbn [pbind skipped]. rewrite Es.
  change (prun w false (tok ")") (41%N :: rest)) with (PMatch rest []). reflexivity.
Qed.
Definition op_code (o : op) : N := match o with OSubstring => 94 | OSubset => 45 | OSuperset => 43 end%N.
Lemma op_text_code o : op_text o = [58; op_code o; 41]%N.
Proof. destruct o; reflexivity. Qed.
Lemma op_rule_runs w r k o ps sp t rest : spaces sp -> Pps ps t -> Forall unrepeated ps -> body r = seqs (tok "(") [PPlus (PRule term); PStr [58; k; 41]%N] -> atomic r = false -> silent r = false ->
  exists x ns, prun w false (PRule r) (40%N :: sp ++ t ++ 58%N :: op_code o :: 41%N :: rest) = (if N.eqb k (op_code o) then PMatch rest [Node r x ns] else PFail) /\ parsed_terms ns (map tree ps).
Proof.
  intros Hsp (Hs & Hn & H) Hu Hb Ha Hsi. destruct (H (PRule term) eq_refl term_stop (or_intror (conj eq_refl Hu)) w (58%N :: op_code o :: 41%N :: rest) (stops_char 58 _ ltac:(auto))) as (ns & t1 & E & Es & Hps).
  destruct ns as [|n0 ns]; [destruct ps; [congruence|inversion Hps]|]. destruct (rep_plus w (PRule term) _ _ _ _ eq_refl eq_refl E) as (t2 & E2 & Es2). rewrite Es, skip_solid in Es2 by (unfold solid; lia).
  exists (consumed (40%N :: sp ++ t ++ 58%N :: op_code o :: 41%N :: rest) rest), (n0 :: ns). split; [|exact Hps]. rewrite run_rule, Ha, Hsi. cbn [orb]. destruct (body_fine r) as [F _]. rewrite Hb in *. cbn [seqs] in *. rewrite seq_eq by exact F. rewrite open_runs. cbn [pbind skipped]. rewrite skip_spaces by exact Hsp. rewrite skip_starts by exact Hs.
  rewrite seq_eq by reflexivity. rewrite E2. cbn [pbind skipped]. rewrite Es2, run_str. cbn [strip]. rewrite !N.eqb_refl. destruct (N.eqb k (op_code o)); cbn [matched_or_fail pbind]; [rewrite app_nil_r|]; reflexivity.
Qed.
Lemma operator_pp o ps sp t : spaces sp -> Pps ps t -> Forall unrepeated ps -> Pp (Operator o ps) (str "(" ++ sp ++ t ++ op_text o).
Proof.
  intros Hsp Hps Hu. apply unrepeated_part; [apply starts_open| |exact I]. intros w rest _. pose proof Hps as (Hs & _ & _). rewrite op_text_code. change (str "(") with [40%N].
  replace (([40%N] ++ sp ++ t ++ [58%N; op_code o; 41%N]) ++ rest) with (40%N :: sp ++ t ++ 58%N :: op_code o :: 41%N :: rest) by (rewrite <- !app_assoc; reflexivity).
  rewrite run_term. change term_rules with ([class; dot] ++ skipn 2 term_rules). rewrite head_open by reflexivity. cbn [skipn term_rules].
  rewrite firsts_miss.
  2:{ destruct (branches_one ps t Hps) as (_ & _ & Hb). destruct (Hb w (58%N :: op_code o :: 41%N :: rest) (stops_char 58 _ ltac:(auto))) as [(n & t1 & E & Es & _) _]; [rewrite skip_solid by (unfold solid; lia); cbn [head_not]; discriminate|]. rewrite skip_solid in Es by (unfold solid; lia).
    rewrite silent_rule by reflexivity. cbn [body seqs]. rewrite seq_eq by reflexivity. rewrite open_runs. cbn [pbind skipped]. rewrite skip_spaces by exact Hsp. rewrite skip_starts by exact Hs. rewrite seq_eq by reflexivity. rewrite E. cbn [pbind skipped]. rewrite Es.
    unfold tok. change (str ")") with [41%N]. rewrite tok_head by (cbn [head_not]; discriminate). reflexivity. }
  change [anagram; superanagram; subanagram; transadd; transdelete; substring; r_subset; r_superset; number; character] with ([anagram; superanagram; subanagram; transadd; transdelete] ++ [substring; r_subset; r_superset; number; character]).
  rewrite firsts_open by (intros r' Hr; cbn [In] in Hr; repeat (destruct Hr as [<-|Hr]; [cbn [opener]; eexists; split; [reflexivity|discriminate]|]); destruct Hr). cbn [firsts].
  destruct (op_rule_runs w substring 94 o ps sp t rest Hsp Hps Hu eq_refl eq_refl eq_refl) as (x1 & ns1 & E1 & P1).
  destruct (op_rule_runs w r_subset 45 o ps sp t rest Hsp Hps Hu eq_refl eq_refl eq_refl) as (x2 & ns2 & E2 & P2).
  destruct (op_rule_runs w r_superset 43 o ps sp t rest Hsp Hps Hu eq_refl eq_refl eq_refl) as (x3 & ns3 & E3 & P3).
  rewrite E1, E2, E3. destruct o; cbn [op_code N.eqb Pos.eqb]; eexists; (split; [reflexivity|]); cbn [tree op_rule operator_ast].
  - apply parse_substring. exact P1.
  - apply parse_subset. exact P2.
  - apply parse_superset. exact P3.
Qed.

(** ** All patterns *)
Scheme writes_ind' := Minimality for writes Sort Prop
with writes_parts_ind' := Minimality for writes_parts Sort Prop
with writes_branches_ind' := Minimality for writes_branches Sort Prop.
Combined Scheme writes_all from writes_ind', writes_parts_ind', writes_branches_ind'.

Lemma written : (forall p t, writes p t -> Pp p t) /\ (forall ps t, writes_parts ps t -> Pps ps t) /\ (forall bs t, writes_branches bs t -> Pbs bs t).
Proof.
  apply writes_all.
  - intros c Hc. apply unrepeated_part; [exists c, []; split; [reflexivity|unfold starter; tauto]| |exact I]. intros w rest _. exists (Node character [c] []). split; [apply symbol_term; exact Hc|reflexivity].
  - apply unrepeated_part; [exists 46%N, []; split; [reflexivity|unfold starter; auto 10]| |exact I]. intros w rest _. exists (Node dot [46%N] []). split; [apply dot_term|reflexivity].
  - intros d n Hd. pose proof (numeral_value d n Hd) as Hv. destruct Hd as (Hd & Hn & _). apply unrepeated_part; [|intros w rest Hr|exact I].
    + destruct (digits_head d [] Hd Hn) as (c & t' & E & Hc). rewrite app_nil_r in E. exists c, t'. split; [exact E|]. unfold starter. rewrite digit_range. auto.
    + exists (Node number d []). split; [apply number_term; assumption|]. cbn [parse_term]. rewrite Hv. reflexivity.
  - intros items ts Hi Hn. apply unrepeated_part; [exists 91%N, (concat ts ++ str "]"); split; [reflexivity|unfold starter; auto 10]| |exact I]. intros w rest _.
    destruct (class_term w false items ts rest Hi Hn) as (n & E & Hp). exists n. split; [|exact Hp]. rewrite <- E. f_equal. rewrite <- !app_assoc. reflexivity.
  - intros items ts Hi Hn _. apply unrepeated_part; [exists 91%N, (94%N :: concat ts ++ str "]"); split; [reflexivity|unfold starter; auto 10]| |exact I]. intros w rest _.
    destruct (class_term w true items ts rest Hi Hn) as (n & E & Hp). exists n. split; [|exact Hp]. rewrite <- E. f_equal. rewrite <- !app_assoc. reflexivity.
  - intros k b t Hb Hn Hk. apply unrepeated_part; [exists 60%N, (b ++ t); split; [reflexivity|unfold starter; auto 10]| |exact I]. intros w rest _.
    destruct (block_term w k b t rest Hb Hn Hk) as (n & E & Hp). exists n. split; [|exact Hp]. rewrite <- E. f_equal. rewrite <- !app_assoc. reflexivity.
  - intros bs sp t Hsp _ H. apply group_pp; assumption.
  - intros o ps sp t Hsp _ H Hu. apply operator_pp; assumption.
  - intros p t sp l m t' _ (Hs & Ht & _) Hu Hsp Hb. split; [destruct Hs as (c & r & -> & Hc); exists c, (r ++ sp ++ t'); auto|]. split; [intros []|]. intros w rest _.
    assert (Hh : exists c r, t' = c :: r /\ is_digit c = false /\ solid c) by (destruct Hb; do 2 eexists; (split; [reflexivity|]); (split; [reflexivity|]); vm_compute; repeat split; discriminate).
    destruct Hh as (c & r & Et & Hc & Hsol).
    destruct (Ht Hu w (sp ++ t' ++ rest)) as (n & E & Hp).
    { destruct p; auto. destruct sp as [|x sp]; [rewrite Et; exact Hc|apply spaces_no_digit; [exact Hsp|discriminate]]. }
    destruct (repeat_runs w (t ++ sp ++ t' ++ rest) (sp ++ t' ++ rest) n (tree p) l m t' rest E) as (n' & E' & Hp'); [rewrite skip_spaces by exact Hsp; rewrite Et; cbn [app]; apply skip_solid; exact Hsol|exact Hp|exact Hb|].
    exists n'. split; [|exact Hp']. rewrite <- !app_assoc. unfold seq_part. rewrite run_alt by reflexivity. rewrite E'. reflexivity.
  - intros p t sp _ Hp Hsp. apply parts_one; assumption.
  - intros p t sp ps t' _ Hp Hsp Ha _ Hps. apply parts_more; assumption.
  - intros ps t _ H. apply branches_one. exact H.
  - intros ps t sp bs t' _ H Hsp _ H'. apply branches_more; assumption.
Qed.
