(** Parsing never fails except on numbers that do not fit. *)
From Coq Require Import String.
From Verif Require Export ParserSpec ShapeProofs Parser ExpandSpec ExpandProofs2.
Local Open Scope list_scope.

(** every run of digits is a 64-bit number *)
Definition small_numbers (t : text) : Prop := forall x, infix x t -> x <> [] -> digits x -> parse_usize x <> None.
Lemma small_infix x t : infix x t -> small_numbers t -> small_numbers x.
Proof. intros H Ht y Hy. apply Ht. eapply infix_trans; eauto. Qed.

Lemma y_rep_text a (Q : N -> Prop) : (forall t ns, yields true a t ns -> Forall Q t) ->
  forall t ns, yields true (PRep a) t ns \/ yields true (PMore a) t ns -> Forall Q t.
Proof.
  intros Ha t ns H. assert (G : forall at_ e, yields at_ e t ns -> at_ = true -> e = PRep a \/ e = PMore a -> Forall Q t).
  { intros at_ e He. induction He; intros Hat Heq; try (destruct Heq; discriminate); try (constructor; fail); subst at_.
    - destruct Heq as [[= ->]|]; [|discriminate]. apply Forall_app. split; [eapply Ha; eassumption|]. apply IHHe2; auto.
    - destruct Heq as [|[= ->]]; [discriminate|]. match goal with Hk : true = true -> ?k = [] |- _ => rewrite (Hk eq_refl) end. cbn [app]. apply Forall_app. split; [eapply Ha; eassumption|]. apply IHHe2; auto. }
  destruct H as [H|H]; eapply G; eauto.
Qed.
Lemma number_node at_ t ns : yields at_ (PRule number) t ns -> ns = [Node number t []] /\ t <> [] /\ digits t.
Proof.
  intros H. apply y_rule in H. destruct H as (n1 & H & ->). cbn [silent atomic] in *. rewrite orb_true_r in H.
  assert (Hn : Forall (fun _ => False) n1).
  { refine (y_plus true ASCII_DIGIT (fun _ _ => False) _ _ t n1 H); [auto|]. intros t' ns' H'. inversion H'; constructor. }
  destruct n1 as [|x n1]; [|inversion Hn; contradiction]. split; [reflexivity|].
  apply y_seq in H. destruct H as (t1 & m1 & sk & t2 & m2 & -> & E & H1 & Hsk & H2). rewrite (Hsk eq_refl). cbn [app].
  inversion H1; subst. split; [discriminate|]. constructor; [assumption|].
  refine (y_rep_text ASCII_DIGIT _ _ t2 m2 (or_introl H2)). intros t' ns' H'. inversion H'; subst. constructor; [assumption|constructor].
Qed.
Lemma number_parses t : small_numbers t -> t <> [] -> digits t -> exists v, parse_usize t = Some v.
Proof. intros H H1 H2. destruct (parse_usize t) as [v|] eqn:E; [eauto|]. exfalso. exact (H t (infix_refl t) H1 H2 E). Qed.
Lemma small_number t x : small_numbers t -> infix x t -> x <> [] -> digits x -> exists v, parse_usize x = Some v.
Proof. intros H Hi H1 H2. destruct (parse_usize x) as [v|] eqn:E; [eauto|]. exfalso. exact (H x Hi H1 H2 E). Qed.

(** ** Terms *)
Definition term_like (r : rule) : bool :=
  match r with
  | character | dot | class | r_subset | r_superset | substring | sequence | alternatives | number
  | repeat_optional | repeat_any | repeat_oneormore | repeat_atmost | repeat_exact | repeat_atleast | repeat_range
  | anagram | superanagram | subanagram | transadd | transdelete => true
  | _ => false
  end.
Definition item (n : node) : Prop := term_like (node_rule n) = true /\ exists at_, yields (at_ || atomic (node_rule n)) (body (node_rule n)) (node_text n) (node_inner n).
Definition one_item (t : text) (ns : list node) : Prop := exists n, ns = [n] /\ item n /\ infix (node_text n) t.
Lemma rule_item at_ r t ns : term_like r = true -> silent r = false -> yields at_ (PRule r) t ns -> one_item t ns.
Proof.
  intros Hr Hs H. apply y_rule in H. destruct H as (n1 & H & ->). rewrite Hs. exists (Node r t n1). split; [reflexivity|]. split; [|apply infix_refl]. split; [exact Hr|]. eexists. exact H.
Qed.
Lemma one_item_infix x t ns : infix x t -> one_item x ns -> one_item t ns.
Proof. intros H (n & -> & H1 & H2). exists n. split; [reflexivity|]. split; [exact H1|]. eapply infix_trans; eauto. Qed.
Lemma subexpression_item at_ t ns : yields at_ (PRule subexpression) t ns -> one_item t ns.
Proof.
  intros H. apply y_rule in H. destruct H as (n1 & H & ->). cbn [silent body] in *. apply y_alt in H. destruct H as [H|H]; eapply rule_item; try exact H; reflexivity.
Qed.
Lemma term_item at_ t ns : yields at_ (PRule term) t ns -> one_item t ns.
Proof.
  intros H. apply y_rule in H. destruct H as (n1 & H & ->). cbn [silent body choice] in *.
  apply y_alt in H. destruct H as [H|H]; [eapply rule_item; try exact H; reflexivity|].
  apply y_alt in H. destruct H as [H|H]; [eapply rule_item; try exact H; reflexivity|].
  apply y_alt in H. destruct H as [H|H].
  { apply y_rule in H. destruct H as (n2 & H & ->). cbn [silent body seqs] in *. apply y_seq in H. destruct H as (t1 & m1 & sk & t2 & m2 & -> & -> & H1 & _ & H2).
    apply y_str in H1. destruct H1 as [-> ->]. apply y_seq in H2. destruct H2 as (t3 & m3 & sk' & t4 & m4 & -> & -> & H3 & _ & H4). apply y_str in H4. destruct H4 as [-> ->].
    rewrite app_nil_r. cbn [app]. eapply one_item_infix; [|eapply subexpression_item; exact H3]. auto 10 with infix. }
  repeat (apply y_alt in H; destruct H as [H|H]; [eapply rule_item; try exact H; reflexivity|]).
  eapply rule_item; try exact H; reflexivity.
Qed.
Lemma repeat_item at_ t ns : yields at_ (PRule r_repeat) t ns -> one_item t ns.
Proof.
  intros H. apply y_rule in H. destruct H as (n1 & H & ->). cbn [silent body choice] in *.
  repeat (apply y_alt in H; destruct H as [H|H]; [eapply rule_item; try exact H; reflexivity|]).
  eapply rule_item; try exact H; reflexivity.
Qed.
Definition part_of (t : text) (n : node) : Prop := item n /\ infix (node_text n) t.
Lemma part_infix x t n : infix x t -> part_of x n -> part_of t n.
Proof. intros H [H1 H2]. split; [exact H1|]. eapply infix_trans; eauto. Qed.
Lemma parts_infix x t ns : Forall (part_of x) ns -> infix x t -> Forall (part_of t) ns.
Proof. intros H Hx. eapply Forall_impl; [|exact H]. intros n. apply part_infix. exact Hx. Qed.
Lemma one_part t ns : one_item t ns -> Forall (part_of t) ns.
Proof. intros (n & -> & H1 & H2). constructor; [split; assumption|constructor]. Qed.
Lemma terms_parts at_ t ns : yields at_ (PPlus (PRule term)) t ns -> Forall (part_of t) ns.
Proof. apply y_plus; [apply part_infix|]. intros t' ns' H. apply one_part. eapply term_item; eauto. Qed.

Fixpoint nsize (n : node) : nat := match n with Node _ _ l => S (fold_right plus 0 (map nsize l)) end.
Lemma nsize_in n l r t : In n l -> nsize n < nsize (Node r t l).
Proof. intros H. cbn [nsize]. induction l as [|x l IH]; [destruct H|]. cbn [map fold_right]. destruct H as [->|H]; [lia|]. specialize (IH H). lia. Qed.

Definition parse_terms := fix terms (l : list node) : outcome (list ast) :=
    match l with
    | [] => Ok []
    | x :: l' => do a <- parse_term x; do rest <- terms l'; Ok (match a with Some a => a :: rest | None => rest end)
    end.
Definition parses_well (n : node) : Prop := exists a, parse_term n = Ok (Some a) /\ banks_ok a = true.
Lemma parse_terms_ok l : Forall parses_well l -> exists as_, parse_terms l = Ok as_ /\ forallb banks_ok as_ = true.
Proof.
  induction 1 as [|x l (a & E & B) _ (as_ & E' & B')]; [exists []; split; reflexivity|]. exists (a :: as_). cbn [parse_terms]. rewrite E. cbn [bind]. fold parse_terms. rewrite E'. cbn [bind forallb]. rewrite B, B'. split; reflexivity.
Qed.
Lemma bank_symbols t : forallb (fun c => c <? CHAR_MAX) (map char_of t) = true.
Proof.
  apply forallb_forall. intros c H. apply in_map_iff in H. destruct H as (x & <- & _). apply Nat.ltb_lt. unfold char_of, CHAR_MAX, WORD_END, PUNCTUATION.
  destruct (in_range 65 90 x) eqn:E1; [unfold in_range in E1; apply andb_true_iff in E1; destruct E1 as [A B]; apply N.leb_le in A, B; lia|].
  destruct (in_range 97 122 x) eqn:E2; [unfold in_range in E2; apply andb_true_iff in E2; destruct E2 as [A B]; apply N.leb_le in A, B; lia|].
  destruct ((x =? 32)%N || (x =? 95)%N); lia.
Qed.
Lemma body_node at_ t ns : yields at_ (PRule anagram_body) t ns -> exists ns', ns = [Node anagram_body t ns'].
Proof. intros H. apply y_rule in H. destruct H as (n1 & H & ->). cbn [silent]. eauto. Qed.
Ltac inv_seq H := let t1 := fresh "t" in let n1 := fresh "n" in let sk := fresh "sk" in let t2 := fresh "t" in let n2 := fresh "n" in let H1 := fresh "H" in
  apply y_seq in H; destruct H as (t1 & n1 & sk & t2 & n2 & -> & -> & H1 & _ & H); try (apply y_str in H1; destruct H1 as [-> ->]).

Lemma numbers_one x : (exists v, parse_usize x = Some v) -> exists v, parse_numbers [Node number x []] = [v].
Proof. intros (v & E). exists v. cbn. rewrite E. reflexivity. Qed.
Lemma class_items at_ t ns : yields at_ (PPlus (PAlt (PRule letter_range) (PRule character))) t ns -> exists items, mapM class_item_of ns = Ok items.
Proof.
  intros H. assert (G : Forall (fun n => exists i, class_item_of n = Ok i) ns).
  { refine (y_plus at_ _ (fun _ n => exists i, class_item_of n = Ok i) _ _ t ns H); [auto|]. clear. intros t ns H. apply y_alt in H. destruct H as [H|H]; apply y_rule in H; destruct H as (n1 & H & ->); cbn [silent].
    - constructor; [|constructor]. cbn [body seqs] in H. inv_seq H. inv_seq H. unfold class_item_of. cbn [node_rule node_text].
      assert (L1 : exists c r, t0 = c :: r) by (apply y_alt in H0; destruct H0 as [H0|H0]; inversion H0; subst; eauto). destruct L1 as (c & r & ->).
      assert (L2 : exists c r, t2 = c :: r) by (apply y_alt in H; destruct H as [H|H]; inversion H; subst; eauto). destruct L2 as (c2 & r2 & ->).
      cbn [app]. unfold index at 1. cbn [nth_error bind]. unfold index. 
      destruct (nth_error (c :: r ++ sk ++ str "-" ++ sk0 ++ c2 :: r2) 2) as [b|] eqn:E; [cbn [bind]; eauto|].
      exfalso. apply nth_error_None in E. cbn [length] in E. rewrite !app_length in E. cbn [length str] in E. lia.
    - constructor; [|constructor]. assert (L : exists c r, t = c :: r).
      { cbn [body choice] in H. apply y_alt in H. destruct H as [H|H]; [apply y_alt in H; destruct H as [H|H]; inversion H; subst; eauto|].
        apply y_alt in H. destruct H as [H|H]; [apply y_rule in H; destruct H as (? & H & _); inversion H; subst; cbn; eauto|].
        apply y_alt in H. destruct H as [H|H]; apply y_rule in H; destruct H as (? & H & _); inversion H; subst; cbn; eauto. }
      destruct L as (c & r & ->). unfold class_item_of. cbn [node_rule node_text]. unfold index. cbn [nth_error bind]. eauto. }
  clear H. induction G as [|n ns (i & E) _ (is_ & E')]; [exists []; reflexivity|]. exists (i :: is_). cbn [mapM]. rewrite E. cbn [bind]. rewrite E'. reflexivity.
Qed.

Lemma item_parses k : forall n, nsize n <= k -> item n -> small_numbers (node_text n) -> parses_well n.
Proof.
  induction k as [|k IH]; intros n Hk [Hr (at_ & Hy)] Hsm; [destruct n; cbn in Hk; lia|]. destruct n as [r t inner]. cbn [node_rule node_text node_inner] in *.
  assert (Hparts : forall l x, (forall n, In n l -> In n inner) -> infix x t -> Forall (part_of x) l -> Forall parses_well l).
  { intros l x Hl Hx H. rewrite Forall_forall in *. intros n Hn. destruct (H n Hn) as [Hi Hinf]. apply IH; [pose proof (nsize_in n inner r t (Hl n Hn)); lia|exact Hi|].
    eapply small_infix; [|exact Hsm]. eapply infix_trans; eauto. }
  assert (Hone : forall x l, one_item x [l] -> In l inner -> infix x t -> parses_well l).
  { intros x l H Hin Hx. apply one_part in H. pose proof (Hparts [l] x ltac:(intros ? [<-|[]]; exact Hin) Hx H) as G. inversion G; assumption. }
  destruct r; cbn [term_like] in Hr; try discriminate; clear Hr; cbn [body] in Hy; unfold parses_well; cbn [parse_term]; fold parse_terms.
  - (* number *)
    pose proof (Y_rule at_ number t inner Hy) as G. cbn [silent] in G. apply number_node in G. destruct G as (_ & H1 & H2). destruct (number_parses t Hsm H1 H2) as (v & ->). eauto.
  - (* character *)
    assert (L : exists c r, t = c :: r).
    { cbn [choice] in Hy. apply y_alt in Hy. destruct Hy as [H|H]; [apply y_alt in H; destruct H as [H|H]; inversion H; subst; eauto|].
      apply y_alt in H. destruct H as [H|H]; [apply y_rule in H; destruct H as (? & H & _); inversion H; subst; cbn; eauto|].
      apply y_alt in H. destruct H as [H|H]; apply y_rule in H; destruct H as (? & H & _); inversion H; subst; cbn; eauto. }
    destruct L as (c & r & ->). unfold index. cbn [nth_error bind]. eauto.
  - eauto.
  - (* class *)
    cbn [seqs] in Hy. inv_seq Hy. inv_seq Hy. inv_seq Hy. apply y_str in Hy. destruct Hy as [-> ->].
    assert (Hi : n = [] \/ exists x, n = [Node r_invert x []]).
    { inversion H; subst; [auto|]. match goal with G : yields _ (PRule r_invert) _ _ |- _ => apply y_rule in G; destruct G as (m & G & ->); cbn [silent body] in G; apply y_str in G; destruct G as [-> ->] end. cbn [silent]. eauto. }
    match goal with G : yields _ (PPlus _) _ _ |- _ => apply class_items in G; destruct G as (items & Ei) end.
    rewrite app_nil_r. cbn [app]. destruct Hi as [->|(x & ->)]; cbn [app]; [rewrite Ei; cbn [bind]; eauto|]. cbn [mapM class_item_of node_rule bind]. rewrite Ei. cbn [bind]. eauto.
  - (* sequence *)
    assert (G : Forall (part_of t) inner).
    { refine (y_plus _ _ part_of part_infix _ t inner Hy). intros t' ns' H. apply one_part. apply y_alt in H. destruct H as [H|H]; [eapply repeat_item; eauto|eapply term_item; eauto]. }
    destruct (parse_terms_ok inner (Hparts inner t (fun _ H => H) (infix_refl t) G)) as (l & -> & B). cbn [bind]. eauto.
  - (* alternatives *)
    assert (G : Forall (part_of t) inner).
    { inv_seq Hy. apply Forall_app. split.
      - eapply parts_infix; [apply one_part; eapply rule_item; [..|exact H]; reflexivity|auto with infix].
      - eapply parts_infix; [refine (y_plus _ _ part_of part_infix _ _ _ Hy)|auto with infix].
        intros t' ns' G. inv_seq G. cbn [app]. eapply parts_infix; [apply one_part; eapply rule_item; [..|exact G]; reflexivity|auto with infix]. }
    destruct (parse_terms_ok inner (Hparts inner t (fun _ H => H) (infix_refl t) G)) as (l & -> & B). cbn [bind]. eauto.
  - (* anagram *)
    cbn [seqs] in Hy. inv_seq Hy. inv_seq Hy. apply y_str in Hy. destruct Hy as [-> ->]. apply body_node in H. destruct H as (ns' & ->). cbn. eexists. split; [reflexivity|]. apply bank_symbols.
  - cbn [seqs] in Hy. inv_seq Hy. inv_seq Hy. apply y_str in Hy. destruct Hy as [-> ->]. apply body_node in H. destruct H as (ns' & ->). cbn. eexists. split; [reflexivity|]. apply bank_symbols.
  - cbn [seqs] in Hy. inv_seq Hy. inv_seq Hy. apply y_str in Hy. destruct Hy as [-> ->]. apply body_node in H. destruct H as (ns' & ->). cbn. eexists. split; [reflexivity|]. apply bank_symbols.
  - (* transadd *)
    cbn [seqs] in Hy. inv_seq Hy. inv_seq Hy. inv_seq Hy. inv_seq Hy. apply y_str in Hy. destruct Hy as [-> ->]. apply body_node in H. destruct H as (ns' & ->).
    match goal with G : yields _ (PRule number) _ _ |- _ => apply number_node in G; destruct G as (-> & N1 & N2) end.
    match goal with |- context [Node number ?x []] => destruct (small_number _ x Hsm ltac:(auto 20 with infix) N1 N2) as (v & Ev) end.
    cbn [app parse_anagram is_rule node_rule node_text]. cbn. rewrite Ev. cbn. eexists. split; [reflexivity|]. apply bank_symbols.
  - cbn [seqs] in Hy. inv_seq Hy. inv_seq Hy. inv_seq Hy. inv_seq Hy. apply y_str in Hy. destruct Hy as [-> ->]. apply body_node in H. destruct H as (ns' & ->).
    match goal with G : yields _ (PRule number) _ _ |- _ => apply number_node in G; destruct G as (-> & N1 & N2) end.
    match goal with |- context [Node number ?x []] => destruct (small_number _ x Hsm ltac:(auto 20 with infix) N1 N2) as (v & Ev) end.
    cbn [app parse_anagram is_rule node_rule node_text]. cbn. rewrite Ev. cbn. eexists. split; [reflexivity|]. apply bank_symbols.
  - (* substring *)
    assert (G : Forall (part_of t) inner).
    { cbn [seqs] in Hy. inv_seq Hy. inv_seq Hy. apply y_str in Hy. destruct Hy as [-> ->]. rewrite app_nil_r. cbn [app]. eapply parts_infix; [eapply terms_parts; exact H|auto 10 with infix]. }
    destruct (parse_terms_ok inner (Hparts inner t (fun _ H => H) (infix_refl t) G)) as (l & -> & B). cbn [bind]. eauto.
  - assert (G : Forall (part_of t) inner).
    { cbn [seqs] in Hy. inv_seq Hy. inv_seq Hy. apply y_str in Hy. destruct Hy as [-> ->]. rewrite app_nil_r. cbn [app]. eapply parts_infix; [eapply terms_parts; exact H|auto 10 with infix]. }
    destruct (parse_terms_ok inner (Hparts inner t (fun _ H => H) (infix_refl t) G)) as (l & -> & B). cbn [bind]. eexists. split; [reflexivity|]. cbn [banks_ok]. clear -B. induction l as [|a l IHl]; [reflexivity|]. cbn [map forallb banks_ok] in *. apply andb_true_iff in B. rewrite (proj1 B), (IHl (proj2 B)). reflexivity.
  - assert (G : Forall (part_of t) inner).
    { cbn [seqs] in Hy. inv_seq Hy. inv_seq Hy. apply y_str in Hy. destruct Hy as [-> ->]. rewrite app_nil_r. cbn [app]. eapply parts_infix; [eapply terms_parts; exact H|auto 10 with infix]. }
    destruct (parse_terms_ok inner (Hparts inner t (fun _ H => H) (infix_refl t) G)) as (l & -> & B). cbn [bind]. eexists. split; [reflexivity|]. cbn [banks_ok]. rewrite forallb_app. cbn [forallb banks_ok any_many]. rewrite andb_true_r. clear -B. induction l as [|a l IHl]; [reflexivity|]. cbn [flat_map app forallb banks_ok any_many andb] in *. apply andb_true_iff in B. rewrite (proj1 B), (IHl (proj2 B)). reflexivity.
  - (* repetitions *)
    inv_seq Hy. apply y_str in Hy. destruct Hy as [-> ->]. apply term_item in H. destruct H as (x & -> & Hx). cbn [app] in *.
    assert (G : parses_well x) by (eapply Hone; [exists x; split; [reflexivity|exact Hx]|left; reflexivity|auto with infix]). destruct G as (a & -> & B). cbn [bind]. eauto.
  -
    inv_seq Hy. apply y_str in Hy. destruct Hy as [-> ->]. apply term_item in H. destruct H as (x & -> & Hx). cbn [app] in *.
    assert (G : parses_well x) by (eapply Hone; [exists x; split; [reflexivity|exact Hx]|left; reflexivity|auto with infix]). destruct G as (a & -> & B). cbn [bind]. eauto.
  -
    inv_seq Hy. apply y_str in Hy. destruct Hy as [-> ->]. apply term_item in H. destruct H as (x & -> & Hx). cbn [app] in *.
    assert (G : parses_well x) by (eapply Hone; [exists x; split; [reflexivity|exact Hx]|left; reflexivity|auto with infix]). destruct G as (a & -> & B). cbn [bind]. eauto.
  -
    cbn [seqs] in Hy. inv_seq Hy. inv_seq Hy. inv_seq Hy. apply y_str in Hy. destruct Hy as [-> ->]. apply term_item in H. destruct H as (x & -> & Hx). cbn [app] in *.
    assert (G : parses_well x) by (eapply Hone; [exists x; split; [reflexivity|exact Hx]|left; reflexivity|auto with infix]). destruct G as (a & -> & B). cbn [bind].
    match goal with G : yields _ (PRule number) _ _ |- _ => apply number_node in G; destruct G as (-> & N1 & N2) end.
    match goal with |- context [Node number ?y []] => destruct (small_number _ y Hsm ltac:(auto 20 with infix) N1 N2) as (v & Ev) end.
    cbn. rewrite Ev. cbn. eauto.
  -
    cbn [seqs] in Hy. inv_seq Hy. inv_seq Hy. inv_seq Hy. apply y_str in Hy. destruct Hy as [-> ->]. apply term_item in H. destruct H as (x & -> & Hx). cbn [app] in *.
    assert (G : parses_well x) by (eapply Hone; [exists x; split; [reflexivity|exact Hx]|left; reflexivity|auto with infix]). destruct G as (a & -> & B). cbn [bind].
    match goal with G : yields _ (PRule number) _ _ |- _ => apply number_node in G; destruct G as (-> & N1 & N2) end.
    match goal with |- context [Node number ?y []] => destruct (small_number _ y Hsm ltac:(auto 20 with infix) N1 N2) as (v & Ev) end.
    cbn. rewrite Ev. cbn. eauto.
  -
    cbn [seqs] in Hy. inv_seq Hy. inv_seq Hy. inv_seq Hy. apply y_str in Hy. destruct Hy as [-> ->]. apply term_item in H. destruct H as (x & -> & Hx). cbn [app] in *.
    assert (G : parses_well x) by (eapply Hone; [exists x; split; [reflexivity|exact Hx]|left; reflexivity|auto with infix]). destruct G as (a & -> & B). cbn [bind].
    match goal with G : yields _ (PRule number) _ _ |- _ => apply number_node in G; destruct G as (-> & N1 & N2) end.
    match goal with |- context [Node number ?y []] => destruct (small_number _ y Hsm ltac:(auto 20 with infix) N1 N2) as (v & Ev) end.
    cbn. rewrite Ev. cbn. eauto.
  -
    cbn [seqs] in Hy. inv_seq Hy. inv_seq Hy. inv_seq Hy. inv_seq Hy. inv_seq Hy. apply y_str in Hy. destruct Hy as [-> ->]. apply term_item in H. destruct H as (x & -> & Hx). cbn [app] in *.
    assert (G : parses_well x) by (eapply Hone; [exists x; split; [reflexivity|exact Hx]|left; reflexivity|auto with infix]). destruct G as (a & -> & B). cbn [bind].
    match goal with G : yields _ (PRule number) ?y _, G' : yields _ (PRule number) ?z _ |- _ => apply number_node in G; destruct G as (-> & N1 & N2); apply number_node in G'; destruct G' as (-> & N3 & N4);
      destruct (small_number _ y Hsm ltac:(auto 20 with infix) N1 N2) as (v & Ev); destruct (small_number _ z Hsm ltac:(auto 20 with infix) N3 N4) as (v' & Ev') end.
    cbn. rewrite Ev, Ev'. cbn. eauto.
Qed.

(** ** Expressions *)
Definition option_like (t : text) (n : node) : Prop :=
  small_numbers t -> forall o, exists o', parse_option o n = Ok o'.
Lemma option_infix x t n : infix x t -> option_like x n -> option_like t n.
Proof. intros Hx H Ht. apply H. eapply small_infix; eauto. Qed.
Lemma option_node at_ t ns : yields at_ (PRule option_) t ns -> Forall (option_like t) ns.
Proof.
  intros H. apply y_rule in H. destruct H as (n1 & H & ->). cbn [silent body choice] in *.
  apply y_alt in H. destruct H as [H|H]; [apply y_rule in H; destruct H as (n2 & H & ->); cbn [silent]; constructor; [|constructor]; intros _ o; eexists; reflexivity|].
  apply y_alt in H. destruct H as [H|H]; [apply y_rule in H; destruct H as (n2 & H & ->); cbn [silent]; constructor; [|constructor]; intros _ o; eexists; reflexivity|].
  apply y_rule in H. destruct H as (n2 & H & ->). cbn [silent body] in *. inv_seq H. apply number_node in H. destruct H as (-> & N1 & N2).
  constructor; [|constructor]. intros Hsm o. match goal with |- context [Node number ?x []] => destruct (small_number _ x Hsm ltac:(auto 20 with infix) N1 N2) as (v & Ev) end.
  unfold parse_option. cbn. rewrite Ev. cbn. eexists. reflexivity.
Qed.
Lemma parse_options_ok t ns : small_numbers t -> Forall (option_like t) ns -> forall o, exists o', foldM parse_option ns o = Ok o'.
Proof.
  intros Ht. induction 1 as [|n ns H _ IH]; intros o; [eexists; reflexivity|]. cbn [foldM]. destruct (H Ht o) as (o' & ->). cbn [bind]. apply IH.
Qed.
Lemma expression_ok at_ t ns : yields at_ (PRule r_expression) t ns -> small_numbers t ->
  exists n e, ns = [n] /\ node_rule n = r_expression /\ parse_expression n = Ok e /\ banks_ok (root e) = true.
Proof.
  intros H Hsm. apply y_rule in H. destruct H as (n1 & H & ->). cbn [silent body seqs] in *. rewrite orb_false_r in H. exists (Node r_expression t n1).
  inv_seq H. inversion H0; subst. cbn [app] in *. inv_seq H. inv_seq H. inversion H; subst.
  match goal with G : yields _ (PRule subexpression) _ _ |- _ => pose proof G as Gs; apply subexpression_item in G; destruct G as (m & -> & Hm & Hmi) end.
  assert (Hr : node_rule m = sequence \/ node_rule m = alternatives).
  { apply y_rule in Gs. destruct Gs as (m' & Gs & E). cbn [silent body] in *. apply y_alt in Gs. destruct Gs as [G|G]; apply y_rule in G; destruct G as (m2 & _ & G); cbn [silent] in G; rewrite G in E; injection E as ->; auto. }
  destruct (item_parses (nsize m) m (le_n _) Hm) as (a & Ea & B); [eapply small_infix; [|exact Hsm]; eapply infix_trans; [exact Hmi|]; auto with infix|].
  match goal with G : yields _ (PRep (PRule option_)) ?x ?l |- _ => assert (Ho : Forall (option_like x) (l ++ [Node EOI [] []])) end.
  { apply Forall_app. split; [|constructor; [intros _ o; eexists; reflexivity|constructor]].
    match goal with G : yields _ (PRep (PRule option_)) ?x ?l |- _ => refine (y_rep _ _ option_like option_infix _ _ _ (or_introl G)) end. intros t' ns' G'. eapply option_node; eauto. }
  eapply parse_options_ok with (o := no_options) in Ho; [|eapply small_infix; [|exact Hsm]; auto 20 with infix]. destruct Ho as (o' & Eo).
  exists (mkExprAst a (detect_options a o')). split; [reflexivity|]. split; [reflexivity|]. split; [|exact B].
  unfold parse_expression. cbn [is_rule node_rule node_inner]. cbn [app]. destruct (rule_eq_dec r_expression r_expression) as [_|]; [|congruence].
  replace (is_rule sequence m || is_rule alternatives m) with true.
  - rewrite Ea. cbn [bind]. unfold parse_options. rewrite Eo. reflexivity.
  - unfold is_rule. destruct Hr as [-> | ->]; cbn; reflexivity.
Qed.
Lemma parse_expr_total t : small_numbers t -> exists r, parse_expr_text t = Ok r /\ match r with Parsed e => banks_ok (root e) = true | ParseError _ => True end.
Proof.
  intros Hsm. unfold parse_expr_text. destruct (parse_rule r_expression t) as [| |rest ns] eqn:E; [eexists; split; [reflexivity|exact I]|destruct (parse_terminates _ _ E)|].
  apply peg_yields in E. destruct E as (p & -> & Hy). destruct (expression_ok _ _ _ Hy) as (n & e & -> & _ & Ee & B); [eapply small_infix; [|exact Hsm]; auto with infix|].
  rewrite Ee. cbn [bind]. eexists. split; [reflexivity|]. exact B.
Qed.

(** ** Queries *)
Definition q_ok (q : query_ast) : Prop := Forall (fun e => banks_ok (root e) = true) (q_expressions q).
Lemma eoi_node at_ t ns : yields at_ PEoi t ns -> t = [] /\ ns = [Node EOI [] []].
Proof. intros H. inversion H; subst; auto. Qed.
Lemma query_node at_ t ns : yields at_ (PRule query) t ns -> small_numbers t ->
  exists p rest, ns = [Node query t (p :: rest)] /\ forall q, q_ok q -> exists q', add_line q p = Ok q' /\ q_ok q'.
Proof.
  intros H Hsm. apply y_rule in H. destruct H as (n1 & H & ->). cbn [silent body choice] in *.
  apply y_alt in H. destruct H as [H|H].
  { apply y_rule in H. destruct H as (n2 & H & ->). cbn [silent body seqs choice] in *. inv_seq H. inversion H0; subst. cbn [app] in *. inv_seq H. apply eoi_node in H. destruct H as [-> ->].
    match goal with G : yields _ (PAlt _ _) _ ?l |- _ => rename G into H2; rename l into nl end.
    assert (G : exists p, nl = [p] /\ forall q, q_ok q -> exists q', add_line q p = Ok q' /\ q_ok q').
    { apply y_alt in H2. destruct H2 as [G|G]; [apply y_rule in G; destruct G as (m & G & ->); cbn [silent]; eexists; split; [reflexivity|]; intros q Hq; eexists; split; [reflexivity|exact Hq]|].
      apply y_alt in G. destruct G as [G|G]; [apply y_rule in G; destruct G as (m & G & ->); cbn [silent]; eexists; split; [reflexivity|]; intros q Hq; eexists; split; [reflexivity|exact Hq]|].
      apply y_alt in G. destruct G as [G|G]; [apply y_rule in G; destruct G as (m & G & ->); cbn [silent]; eexists; split; [reflexivity|]; intros q Hq; eexists; split; [reflexivity|exact Hq]|].
      apply y_alt in G. destruct G as [G|G]; apply y_rule in G; destruct G as (m & G & ->); cbn [silent]; eexists; split; [reflexivity| |reflexivity|]; intros q Hq; eexists; split; [reflexivity|exact Hq|reflexivity|exact Hq]. }
    destruct G as (p & -> & G). exists p, [Node EOI [] []]. split; [reflexivity|exact G]. }
  apply y_alt in H. destruct H as [H|H].
  { apply y_rule in H. destruct H as (n2 & H & ->). cbn [silent body seqs] in *. exists (Node macro_define t n2), []. split; [reflexivity|]. intros q Hq.
    inv_seq H. inv_seq H. inv_seq H. inv_seq H. apply eoi_node in H. destruct H as [-> ->]. inversion H0; subst.
    repeat match goal with G : yields _ (PRule _) _ _ |- _ => apply y_rule in G; destruct G as (? & _ & ->); cbn [silent] end.
    unfold add_line. cbn. eexists. split; [reflexivity|exact Hq]. }
  apply y_alt in H. destruct H as [H|H].
  { destruct (expression_ok _ _ _ H Hsm) as (n & e & -> & Hn & Ee & B). exists n, []. split; [reflexivity|]. intros q Hq. unfold add_line. rewrite Hn, Ee. cbn [bind]. eexists. split; [reflexivity|].
    unfold q_ok. cbn [q_expressions]. apply Forall_app. split; [exact Hq|]. constructor; [exact B|constructor]. }
  apply y_rule in H. destruct H as (n2 & H & ->). cbn [silent body] in *. inv_seq H. inversion H0; subst. apply eoi_node in H. destruct H as [-> ->]. cbn [app].
  exists (Node EOI [] []), []. split; [reflexivity|]. intros q Hq. eexists. split; [reflexivity|exact Hq].
Qed.

(** the lines handed to the grammar, after macro substitution *)
Fixpoint read_lines (u : unicode) (q : query_ast) (i : nat) (ls : list text) : list text :=
  match ls with
  | [] => []
  | l :: ls' =>
      (match wordlist (q_options q) with None => [substitute (macros q) l] | Some _ => [] end) ++
      (match parse_query_line u q i l with Ok (Parsed q') => read_lines u q' (S i) ls' | _ => [] end)
  end.
Lemma query_line_ok u q i l : q_ok q -> (wordlist (q_options q) = None -> small_numbers (substitute (macros q) l)) ->
  exists r, parse_query_line u q i l = Ok r /\ match r with Parsed q' => q_ok q' | ParseError n => n = i + 1 end.
Proof.
  intros Hq Hsm. unfold parse_query_line. destruct (wordlist (q_options q)) as [wl|].
  - destruct (text_eqb (trim l) []); eexists; (split; [reflexivity|exact Hq]).
  - specialize (Hsm eq_refl). destruct (parse_rule query (substitute (macros q) l)) as [| |rest ns] eqn:E; [eexists; split; reflexivity|destruct (parse_terminates _ _ E)|].
    apply peg_yields in E. destruct E as (p & E & Hy). rewrite E in Hsm. destruct (query_node _ _ _ Hy) as (n & r & -> & Hn); [eapply small_infix; [|exact Hsm]; auto with infix|].
    cbn [node_inner]. destruct (Hn q Hq) as (q' & -> & Hq'). cbn [bind]. eexists. split; [reflexivity|exact Hq'].
Qed.
Lemma query_lines_ok u ls : forall q i, q_ok q -> Forall small_numbers (read_lines u q i ls) ->
  exists r, parse_query_lines u q i ls = Ok r /\ match r with Parsed q' => q_ok q' | ParseError n => i < n <= i + length ls end.
Proof.
  induction ls as [|l ls IH]; intros q i Hq Hsm; [eexists; split; [reflexivity|exact Hq]|]. cbn [read_lines] in Hsm. apply Forall_app in Hsm. destruct Hsm as [H1 H2].
  destruct (query_line_ok u q i l Hq) as (r & E & Hr); [intros E; rewrite E in H1; inversion H1; assumption|]. cbn [parse_query_lines]. rewrite E in *. cbn [bind].
  destruct r as [q'|n].
  - destruct (IH q' (S i) Hr H2) as (r & -> & Hr'). eexists. split; [reflexivity|]. destruct r; [exact Hr'|]. cbn [length]. lia.
  - eexists. split; [reflexivity|]. cbn [length]. lia.
Qed.
Definition no_query : query_ast := mkQueryAst [] [] no_query_options.
Lemma parse_query_total u t : Forall small_numbers (read_lines u no_query 0 (split_lines t)) ->
  exists r, parse_query u t = Ok r /\ match r with Parsed _ => True | ParseError n => 1 <= n <= length (split_lines t) end.
Proof.
  intros H. unfold parse_query. fold no_query. destruct (query_lines_ok u _ no_query 0 (Forall_nil _) H) as (r & -> & Hr). cbn [bind]. destruct r as [q|n]; [|exists (ParseError n); split; [reflexivity|cbn in Hr; lia]].
  destruct (expand_all (q_expressions q) Hr) as (ess & -> & _). cbn [bind]. eexists. split; [reflexivity|exact I].
Qed.
