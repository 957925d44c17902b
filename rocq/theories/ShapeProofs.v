(** Shape of the nodes the generated parser delivers. *)
From Verif Require Export GrammarProofs.
Local Open Scope list_scope.

(** [yields at_ e t ns]: matching [e] consumed [t] and produced [ns]. *)
Inductive yields : bool -> pexp -> text -> list node -> Prop :=
| Y_str at_ s : yields at_ (PStr s) s []
| Y_ins at_ s t : length t = length s -> yields at_ (PIns s) t []
| Y_range at_ lo hi c : in_range lo hi c = true -> yields at_ (PRange lo hi) [c] []
| Y_any at_ c : yields at_ PAny [c] []
| Y_soi at_ : yields at_ PSoi [] []
| Y_eoi at_ : yields at_ PEoi [] [Node EOI [] []]
| Y_seq at_ a b t1 n1 sk t2 n2 : yields at_ a t1 n1 -> (at_ = true -> sk = []) -> yields at_ b t2 n2 -> yields at_ (PSeq a b) (t1 ++ sk ++ t2) (n1 ++ n2)
| Y_alt1 at_ a b t ns : yields at_ a t ns -> yields at_ (PAlt a b) t ns
| Y_alt2 at_ a b t ns : yields at_ b t ns -> yields at_ (PAlt a b) t ns
| Y_opt0 at_ a : yields at_ (POpt a) [] []
| Y_opt1 at_ a t ns : yields at_ a t ns -> yields at_ (POpt a) t ns
| Y_rep0 at_ a : yields at_ (PRep a) [] []
| Y_rep1 at_ a t1 n1 t2 n2 : yields at_ a t1 n1 -> yields at_ (PMore a) t2 n2 -> yields at_ (PRep a) (t1 ++ t2) (n1 ++ n2)
| Y_more0 at_ a : yields at_ (PMore a) [] []
| Y_more1 at_ a sk t1 n1 t2 n2 : (at_ = true -> sk = []) -> yields at_ a t1 n1 -> yields at_ (PMore a) t2 n2 -> yields at_ (PMore a) (sk ++ t1 ++ t2) (n1 ++ n2)
| Y_rule at_ r t ns : yields (at_ || atomic r) (body r) t ns -> yields at_ (PRule r) t (if silent r then ns else [Node r t ns]).

Lemma peg_yields f : forall w at_ e t t1 ns, peg f w at_ e t = PMatch t1 ns -> exists p, t = p ++ t1 /\ yields at_ e p ns.
Proof.
  induction f as [|f IH]; intros w at_ e t t1 ns H; [discriminate|].
  assert (Hs : forall t t1 ns, (if at_ then PMatch t [] else peg f w true skip_exp t) = PMatch t1 ns -> exists p, t = p ++ t1 /\ (at_ = true -> p = [])).
  { intros t0 t2 ns2 E. destruct at_; [injection E as -> _; exists []; auto|]. apply IH in E. destruct E as (p & E & _). exists p. split; [exact E|discriminate]. }
  destruct e; cbn [peg] in H.
  - destruct (strip s t) as [r|] eqn:E; [|discriminate]. injection H as <- <-. apply strip_app in E. exists s. split; [exact E|constructor].
  - destruct (strip_ins s t) as [r|] eqn:E; [|discriminate]. injection H as <- <-. apply strip_ins_app in E. destruct E as (p & E & Hp). exists p. split; [exact E|constructor; exact Hp].
  - destruct t as [|c t]; [discriminate|]. destruct (in_range lo hi c) eqn:E; [|discriminate]. injection H as <- <-. exists [c]. split; [reflexivity|constructor; exact E].
  - destruct t as [|c t]; [discriminate|]. injection H as <- <-. exists [c]. split; [reflexivity|constructor].
  - destruct (length t =? w); [|discriminate]. injection H as <- <-. exists []. split; [reflexivity|constructor].
  - destruct t as [|c t]; [|discriminate]. injection H as <- <-. exists []. split; [reflexivity|constructor].
  - destruct (peg f w at_ e1 t) as [| |s1 n1] eqn:E1; try discriminate. cbn [pbind] in H.
    destruct (if at_ then PMatch s1 [] else peg f w true skip_exp s1) as [| |s2 n2] eqn:E2; try discriminate. cbn [pbind] in H.
    destruct (peg f w at_ e2 s2) as [| |s3 n3] eqn:E3; try discriminate. cbn [pbind] in H. injection H as <- <-.
    apply IH in E1, E3. apply Hs in E2. destruct E1 as (p1 & -> & H1), E2 as (p2 & -> & H2), E3 as (p3 & -> & H3).
    exists (p1 ++ p2 ++ p3). split; [rewrite !app_assoc; reflexivity|]. constructor; auto.
  - destruct (peg f w at_ e1 t) as [| |s1 n1] eqn:E1; try discriminate.
    + apply IH in H. destruct H as (p & -> & Hp). exists p. split; [reflexivity|]. apply Y_alt2. exact Hp.
    + injection H as <- <-. apply IH in E1. destruct E1 as (p & -> & Hp). exists p. split; [reflexivity|]. apply Y_alt1. exact Hp.
  - destruct (peg f w at_ e t) as [| |s1 n1] eqn:E1; try discriminate; injection H as <- <-.
    + exists []. split; [reflexivity|constructor].
    + apply IH in E1. destruct E1 as (p & -> & Hp). exists p. split; [reflexivity|]. apply Y_opt1. exact Hp.
  - destruct (peg f w at_ e t) as [| |s1 n1] eqn:E1; try discriminate; [injection H as <- <-; exists []; split; [reflexivity|constructor]|].
    destruct (peg f w at_ (PMore e) s1) as [| |s2 n2] eqn:E2; try discriminate. cbn [pbind] in H. injection H as <- <-.
    apply IH in E1, E2. destruct E1 as (p1 & -> & H1), E2 as (p2 & -> & H2). exists (p1 ++ p2). split; [rewrite !app_assoc; reflexivity|]. apply Y_rep1; assumption.
  - destruct (if at_ then PMatch t [] else peg f w true skip_exp t) as [| |s0 n0] eqn:E0; cbn [pbind] in H; try discriminate; [injection H as <- <-; exists []; split; [reflexivity|constructor]|].
    destruct (peg f w at_ e s0) as [| |s1 n1] eqn:E1; try discriminate; [injection H as <- <-; exists []; split; [reflexivity|constructor]|].
    destruct (peg f w at_ (PMore e) s1) as [| |s2 n2] eqn:E2; try discriminate. cbn [pbind] in H. injection H as <- <-.
    apply Hs in E0. apply IH in E1, E2. destruct E0 as (p0 & -> & H0), E1 as (p1 & -> & H1), E2 as (p2 & -> & H2). exists (p0 ++ p1 ++ p2). split; [rewrite !app_assoc; reflexivity|]. apply Y_more1; assumption.
  - destruct (peg f w (at_ || atomic r) (body r) t) as [| |s1 n1] eqn:E1; try discriminate. cbn [pbind] in H.
    apply IH in E1. destruct E1 as (p & -> & Hp). injection H as <- <-. exists p. split; [reflexivity|].
    replace (consumed (p ++ s1) s1) with p; [constructor; exact Hp|]. unfold consumed. rewrite app_length. replace (length p + length s1 - length s1) with (length p) by lia.
    rewrite firstn_app, Nat.sub_diag, firstn_O, app_nil_r, firstn_all. reflexivity.
Qed.

(** ** Inversion *)
Lemma y_seq at_ a b t ns : yields at_ (PSeq a b) t ns -> exists t1 n1 sk t2 n2, t = t1 ++ sk ++ t2 /\ ns = n1 ++ n2 /\ yields at_ a t1 n1 /\ (at_ = true -> sk = []) /\ yields at_ b t2 n2.
Proof. intros H. inversion H; subst. repeat eexists; eauto. Qed.
Lemma y_alt at_ a b t ns : yields at_ (PAlt a b) t ns -> yields at_ a t ns \/ yields at_ b t ns.
Proof. intros H. inversion H; subst; auto. Qed.
Lemma y_str at_ s t ns : yields at_ (PStr s) t ns -> t = s /\ ns = [].
Proof. intros H. inversion H; subst; auto. Qed.
Lemma y_rule at_ r t ns : yields at_ (PRule r) t ns -> exists n1, yields (at_ || atomic r) (body r) t n1 /\ ns = if silent r then n1 else [Node r t n1].
Proof. intros H. inversion H; subst; eauto. Qed.
Definition infix (x t : text) : Prop := exists p q, t = p ++ x ++ q.
Lemma infix_refl t : infix t t. Proof. exists [], []. rewrite app_nil_r. reflexivity. Qed.
Lemma infix_l x a b : infix x a -> infix x (a ++ b).
Proof. intros (p & q & ->). exists p, (q ++ b). rewrite <- !app_assoc. reflexivity. Qed.
Lemma infix_r x a b : infix x b -> infix x (a ++ b).
Proof. intros (p & q & ->). exists (a ++ p), q. rewrite <- !app_assoc. reflexivity. Qed.
Lemma infix_trans x y z : infix x y -> infix y z -> infix x z.
Proof. intros (p & q & ->) (p' & q' & ->). exists (p' ++ p), (q ++ q'). rewrite <- !app_assoc. reflexivity. Qed.
#[export] Hint Resolve infix_refl infix_l infix_r : infix.

(** all nodes of a repetition come from its items *)
Lemma y_rep at_ a (P : text -> node -> Prop) :
  (forall x t n, infix x t -> P x n -> P t n) -> (forall t ns, yields at_ a t ns -> Forall (P t) ns) ->
  forall t ns, yields at_ (PRep a) t ns \/ yields at_ (PMore a) t ns -> Forall (P t) ns.
Proof.
  intros HP Ha t ns H. assert (G : forall e, yields at_ e t ns -> e = PRep a \/ e = PMore a -> Forall (P t) ns).
  { intros e He. induction He; intros Heq; try (destruct Heq; discriminate); try (constructor; fail).
    - destruct Heq as [[= ->]|]; [|discriminate]. apply Forall_app. split.
      + eapply Forall_impl; [|apply Ha; eassumption]. intros n. apply HP. auto with infix.
      + eapply Forall_impl; [|apply IHHe2; auto]. intros n. apply HP. auto with infix. 
    - destruct Heq as [|[= ->]]; [discriminate|]. apply Forall_app. split.
      + eapply Forall_impl; [|apply Ha; eassumption]. intros n. apply HP. auto with infix.
      + eapply Forall_impl; [|apply IHHe2; auto]. intros n. apply HP. auto with infix. }
  destruct H as [H|H]; eapply G; eauto.
Qed.
Lemma y_plus at_ a (P : text -> node -> Prop) :
  (forall x t n, infix x t -> P x n -> P t n) -> (forall t ns, yields at_ a t ns -> Forall (P t) ns) ->
  forall t ns, yields at_ (PPlus a) t ns -> Forall (P t) ns.
Proof.
  intros HP Ha t ns H. apply y_seq in H. destruct H as (t1 & n1 & sk & t2 & n2 & -> & -> & H1 & _ & H2). apply Forall_app. split.
  - eapply Forall_impl; [|apply Ha; eassumption]. intros n. apply HP. auto with infix.
  - eapply Forall_impl; [|eapply (y_rep at_ a P HP Ha); left; eassumption]. intros n. apply HP. auto with infix.
Qed.
