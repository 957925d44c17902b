(** Equations of the generated parser, without fuel. *)
From Coq Require Import String.
From Verif Require Export GrammarProofs ShapeProofs.
Local Open Scope list_scope.

Definition prun (w : nat) (at_ : bool) (e : pexp) (t : text) : presult := peg (rank at_ e + K * length t) w at_ e t.
Lemma prun_fuel w at_ e t : fine e = true -> prun w at_ e t <> PFuel.
Proof. intros H. apply peg_enough; [exact H|apply le_n]. Qed.
Lemma peg_prun f w at_ e t : fine e = true -> peg f w at_ e t <> PFuel -> peg f w at_ e t = prun w at_ e t.
Proof.
  intros H Hf. pose proof (prun_fuel w at_ e t H) as Hr. unfold prun in *. set (g := rank at_ e + K * length t) in *.
  rewrite <- (peg_mono f (Nat.max f g) w at_ e t) by (lia || exact Hf). rewrite <- (peg_mono g (Nat.max f g) w at_ e t) by (lia || exact Hr). reflexivity.
Qed.
Lemma enough_prun f w at_ e t : fine e = true -> rank at_ e + K * length t <= f -> peg f w at_ e t = prun w at_ e t.
Proof. intros H Hf. apply peg_prun; [exact H|]. apply peg_enough; assumption. Qed.
Lemma parse_rule_run r t : parse_rule r t = prun (length t) false (PRule r) t.
Proof. unfold parse_rule. apply peg_prun; [reflexivity|]. apply parse_terminates. Qed.
(** unfolding once with as much fuel as desired *)
Lemma prun_unfold w at_ e t : fine e = true -> forall f, rank at_ e + K * length t <= S f -> prun w at_ e t = peg (S f) w at_ e t.
Proof. intros H f Hf. symmetry. apply enough_prun; assumption. Qed.

(** ** Leaves *)
Lemma run_str w at_ s t : prun w at_ (PStr s) t = matched_or_fail (strip s t).
Proof. reflexivity. Qed.
Lemma run_ins w at_ s t : prun w at_ (PIns s) t = matched_or_fail (strip_ins s t).
Proof. reflexivity. Qed.
Lemma run_range w at_ lo hi t : prun w at_ (PRange lo hi) t = match t with c :: t' => if in_range lo hi c then PMatch t' [] else PFail | [] => PFail end.
Proof. reflexivity. Qed.
Lemma run_any w at_ t : prun w at_ PAny t = match t with _ :: t' => PMatch t' [] | [] => PFail end.
Proof. reflexivity. Qed.
Lemma run_soi w at_ t : prun w at_ PSoi t = if length t =? w then PMatch t [] else PFail.
Proof. reflexivity. Qed.
Lemma run_eoi w at_ t : prun w at_ PEoi t = match t with [] => PMatch [] [Node EOI [] []] | _ => PFail end.
Proof. reflexivity. Qed.

(** ** Compound expressions *)
Lemma pbind_ext r k k' : (forall (t : text) (ns : list node), r = PMatch t ns -> k t ns = k' t ns) -> pbind r k = pbind r k'.
Proof. intros H. destruct r as [| |t ns]; [reflexivity|reflexivity|]. cbn [pbind]. exact (H t ns eq_refl). Qed.
Definition run_skip (w : nat) (at_ : bool) (t : text) : presult := if at_ then PMatch t [] else prun w true skip_exp t.
Lemma big_skip f w (at_ : bool) t : skip_rank + K * length t <= f -> (if at_ then PMatch t [] else peg f w true skip_exp t) = run_skip w at_ t.
Proof. intros H. destruct at_; [reflexivity|]. unfold run_skip. destruct skip_fine as [F R]. apply enough_prun; [exact F|]. lia. Qed.
Lemma run_skip_len w at_ t t1 ns : run_skip w at_ t = PMatch t1 ns -> length t1 <= length t.
Proof. unfold run_skip, prun. destruct at_; [intros [= -> _]; lia|]. intros H. apply peg_eats in H. destruct H as (p & -> & _). rewrite app_length. lia. Qed.
Lemma prun_len w at_ e t t1 ns : prun w at_ e t = PMatch t1 ns -> length t1 <= length t.
Proof. unfold prun. intros H. apply peg_eats in H. destruct H as (p & -> & _). rewrite app_length. lia. Qed.
(** fuel enough for everything that can be called *)
Definition top (at_ : bool) (es : list pexp) (t : text) : nat := fold_right (fun e n => rank at_ e + n) 0 es + skip_rank + K * length t.
Lemma run_seq w at_ a b t : fine (PSeq a b) = true -> prun w at_ (PSeq a b) t =
  pbind (prun w at_ a t) (fun t1 n1 => pbind (run_skip w at_ t1) (fun t2 _ => pbind (prun w at_ b t2) (fun t3 n3 => PMatch t3 (n1 ++ n3)))).
Proof.
  intros H. pose proof H as H'. cbn [fine] in H'. apply andb_true_iff in H'. destruct H' as [H' _]. apply andb_true_iff in H'. destruct H' as [Ha Hb].
  rewrite (prun_unfold w at_ _ t H (top at_ [PSeq a b; a; b] t)) by (unfold top; cbn [fold_right]; lia). cbn [peg].
  rewrite (enough_prun _ w at_ a t Ha) by (unfold top; cbn [fold_right]; lia). apply pbind_ext. intros t1 n1 E1. apply prun_len in E1.
  rewrite big_skip by (unfold top; cbn [fold_right]; unfold K in *; lia). apply pbind_ext. intros t2 n2 E2. apply run_skip_len in E2.
  rewrite (enough_prun _ w at_ b t2 Hb) by (unfold top; cbn [fold_right]; unfold K in *; lia). reflexivity.
Qed.
Lemma run_alt w at_ a b t : fine (PAlt a b) = true -> prun w at_ (PAlt a b) t = match prun w at_ a t with PFail => prun w at_ b t | r => r end.
Proof.
  intros H. pose proof H as H'. cbn [fine] in H'. apply andb_true_iff in H'. destruct H' as [Ha Hb].
  rewrite (prun_unfold w at_ _ t H (top at_ [PAlt a b; a; b] t)) by (unfold top; cbn [fold_right]; lia). cbn [peg].
  rewrite (enough_prun _ w at_ a t Ha) by (unfold top; cbn [fold_right]; lia). rewrite (enough_prun _ w at_ b t Hb) by (unfold top; cbn [fold_right]; lia). reflexivity.
Qed.
Lemma run_opt w at_ a t : fine a = true -> prun w at_ (POpt a) t = match prun w at_ a t with PFail => PMatch t [] | r => r end.
Proof.
  intros H. rewrite (prun_unfold w at_ (POpt a) t H (top at_ [POpt a; a] t)) by (unfold top; cbn [fold_right]; lia). cbn [peg].
  rewrite (enough_prun _ w at_ a t H) by (unfold top; cbn [fold_right]; lia). reflexivity.
Qed.
Lemma fine_rep a : fine (PRep a) = true -> fine a = true.
Proof. cbn [fine]. intros H. apply andb_true_iff in H. destruct H as [H _]. apply andb_true_iff in H. apply H. Qed.
Lemma run_rep w at_ a t : fine (PRep a) = true -> prun w at_ (PRep a) t =
  match prun w at_ a t with PFail => PMatch t [] | PFuel => PFuel | PMatch t1 n1 => pbind (prun w at_ (PMore a) t1) (fun t2 n2 => PMatch t2 (n1 ++ n2)) end.
Proof.
  intros H. pose proof (fine_rep a H) as Ha. assert (Hm : fine (PMore a) = true) by exact H.
  rewrite (prun_unfold w at_ _ t H (top at_ [PRep a; a; PMore a] t)) by (unfold top; cbn [fold_right]; lia). cbn [peg].
  rewrite (enough_prun _ w at_ a t Ha) by (unfold top; cbn [fold_right]; lia). destruct (prun w at_ a t) as [| |t1 n1] eqn:E; try reflexivity. apply prun_len in E.
  rewrite (enough_prun _ w at_ (PMore a) t1 Hm) by (unfold top; cbn [fold_right]; unfold K in *; lia). reflexivity.
Qed.
Lemma run_more w at_ a t : fine (PRep a) = true -> prun w at_ (PMore a) t =
  match pbind (run_skip w at_ t) (fun t1 _ => prun w at_ a t1) with PFail => PMatch t [] | PFuel => PFuel | PMatch t1 n1 => pbind (prun w at_ (PMore a) t1) (fun t2 n2 => PMatch t2 (n1 ++ n2)) end.
Proof.
  intros H. pose proof (fine_rep a H) as Ha. assert (Hm : fine (PMore a) = true) by exact H.
  rewrite (prun_unfold w at_ (PMore a) t Hm (top at_ [PMore a; a] t)) by (unfold top; cbn [fold_right]; lia). cbn [peg].
  rewrite big_skip by (unfold top; cbn [fold_right]; lia).
  assert (E : pbind (run_skip w at_ t) (fun t1 _ => peg (top at_ [PMore a; a] t) w at_ a t1) = pbind (run_skip w at_ t) (fun t1 _ => prun w at_ a t1)).
  { apply pbind_ext. intros t1 n1 E1. apply run_skip_len in E1. apply enough_prun; [exact Ha|]. unfold top. cbn [fold_right]. unfold K in *. lia. }
  rewrite E. destruct (pbind (run_skip w at_ t) (fun t1 _ => prun w at_ a t1)) as [| |t1 n1] eqn:E1; try reflexivity.
  assert (L : length t1 <= length t).
  { destruct (run_skip w at_ t) as [| |t0 n0] eqn:E0; try discriminate. apply run_skip_len in E0. cbn [pbind] in E1. apply prun_len in E1. lia. }
  rewrite (enough_prun _ w at_ (PMore a) t1 Hm) by (unfold top; cbn [fold_right]; unfold K in *; lia). reflexivity.
Qed.
Lemma run_rule w at_ r t : prun w at_ (PRule r) t =
  pbind (prun w (at_ || atomic r) (body r) t) (fun t1 n1 => PMatch t1 (if silent r then n1 else [Node r (consumed t t1) n1])).
Proof.
  destruct (body_fine r) as [F R]. rewrite (prun_unfold w at_ (PRule r) t eq_refl (rank (at_ || atomic r) (body r) + rule_rank r + K * length t)) by (cbn [rank]; lia). cbn [peg].
  rewrite (enough_prun _ w (at_ || atomic r) (body r) t F) by lia. reflexivity.
Qed.

(** ** Skipping *)
Fixpoint drop_spaces (t : text) : text := match t with c :: t' => if N.eqb c 32 then drop_spaces t' else t | [] => [] end.
(** a line comment: two slashes or dashes and at least one more code point *)
Definition comment_at (t : text) : bool :=
  match t with
  | a :: b :: _ :: _ => (N.eqb a 47 && N.eqb b 47) || (N.eqb a 45 && N.eqb b 45)
  | _ => false
  end.
Definition skip_text (t : text) : text := let t := drop_spaces t in if comment_at t then [] else t.
Lemma run_space w t : prun w true (PRule WHITESPACE) t = match t with c :: t' => if N.eqb c 32 then PMatch t' [] else PFail | [] => PFail end.
Proof. rewrite run_rule. cbn [body silent]. unfold tok. rewrite run_str. destruct t as [|c t]; [reflexivity|]. cbn [str strip]. change (Ascii.N_of_ascii _) with 32%N. rewrite N.eqb_sym. destruct (N.eqb c 32); reflexivity. Qed.
Lemma run_spaces_more w t : prun w true (PMore (PRule WHITESPACE)) t = PMatch (drop_spaces t) [].
Proof.
  induction t as [|c t IH]; rewrite run_more by reflexivity; unfold run_skip; cbn [pbind]; rewrite run_space; [reflexivity|]. cbn [drop_spaces]. destruct (N.eqb c 32); [|reflexivity]. rewrite IH. reflexivity.
Qed.
Lemma run_spaces w t : prun w true (PRep (PRule WHITESPACE)) t = PMatch (drop_spaces t) [].
Proof. rewrite run_rep by reflexivity. rewrite run_space. destruct t as [|c t]; [reflexivity|]. cbn [drop_spaces]. destruct (N.eqb c 32); [|reflexivity]. rewrite run_spaces_more. reflexivity. Qed.
Lemma run_anys_more w t : prun w true (PMore PAny) t = PMatch [] [].
Proof. induction t as [|c t IH]; rewrite run_more by reflexivity; unfold run_skip; cbn [pbind]; rewrite run_any; [reflexivity|]. rewrite IH. reflexivity. Qed.
Lemma run_anys w t : prun w true (PPlus PAny) t = match t with [] => PFail | _ => PMatch [] [] end.
Proof.
  unfold PPlus. rewrite run_seq by reflexivity. rewrite run_any. destruct t as [|c t]; [reflexivity|]. cbn [pbind run_skip]. rewrite run_rep by reflexivity. rewrite run_any. destruct t as [|d t]; [reflexivity|]. rewrite run_anys_more. reflexivity.
Qed.
Lemma run_comment w t : prun w true (PRule COMMENT) t = if comment_at t then PMatch [] [] else PFail.
Proof.
  rewrite run_rule. cbn [body silent orb atomic]. rewrite run_alt by reflexivity.
  assert (H2 : prun w true (PSeq (tok "/*") (PSeq (PPlus PAny) (tok "*/"))) t = PFail).
  { rewrite run_seq by reflexivity. unfold tok at 1. rewrite run_str. destruct (strip (str "/*") t) as [t1|]; [|reflexivity]. cbn [matched_or_fail pbind run_skip].
    rewrite run_seq by reflexivity. rewrite run_anys. destruct t1; [reflexivity|]. cbn [pbind run_skip]. unfold tok. rewrite run_str. reflexivity. }
  rewrite H2. clear H2. rewrite run_seq by reflexivity. rewrite run_alt by reflexivity. unfold tok. rewrite !run_str.
  assert (S2 : forall c t, strip [c; c] t = match t with a :: b :: r => if N.eqb c a && N.eqb c b then Some r else None | _ => None end).
  { intros c [|a [|b r]]; cbn; [reflexivity|destruct (N.eqb c a); reflexivity|]. destruct (N.eqb c a), (N.eqb c b); reflexivity. }
  change (str "//") with [47; 47]%N. change (str "--") with [45; 45]%N. rewrite !S2.
  destruct t as [|a [|b t]]; [reflexivity|reflexivity|]. rewrite (N.eqb_sym 47 a), (N.eqb_sym 47 b), (N.eqb_sym 45 a), (N.eqb_sym 45 b).
  destruct (N.eqb a 47 && N.eqb b 47) eqn:E1.
  - cbn [matched_or_fail pbind run_skip]. rewrite run_anys. destruct t as [|c t]; [reflexivity|]. cbn [comment_at]. rewrite E1. reflexivity.
  - cbn [matched_or_fail]. destruct (N.eqb a 45 && N.eqb b 45) eqn:E2; cbn [matched_or_fail pbind run_skip].
    + rewrite run_anys. destruct t as [|c t]; [reflexivity|]. cbn [comment_at]. rewrite E1, E2. reflexivity.
    + destruct t as [|c t]; [reflexivity|]. cbn [comment_at]. rewrite E1, E2. reflexivity.
Qed.
Lemma run_skip_text w at_ t : run_skip w at_ t = PMatch (if at_ then t else skip_text t) [].
Proof.
  destruct at_; [reflexivity|]. unfold run_skip, skip_exp. rewrite run_seq by reflexivity. rewrite run_spaces. cbn [pbind run_skip].
  rewrite run_rep by reflexivity. rewrite run_seq by reflexivity. rewrite run_comment. unfold skip_text. cbv zeta. destruct (comment_at (drop_spaces t)); [|reflexivity].
  cbn [pbind run_skip]. rewrite run_spaces. cbn [drop_spaces pbind]. rewrite run_more by reflexivity. cbn [run_skip pbind]. rewrite run_seq by reflexivity. rewrite run_comment. reflexivity.
Qed.
(** the equations with the skip made explicit *)
Definition skipped (at_ : bool) (t : text) : text := if at_ then t else skip_text t.
Lemma seq_eq w at_ a b t : fine (PSeq a b) = true -> prun w at_ (PSeq a b) t =
  pbind (prun w at_ a t) (fun t1 n1 => pbind (prun w at_ b (skipped at_ t1)) (fun t3 n3 => PMatch t3 (n1 ++ n3))).
Proof. intros H. rewrite run_seq by exact H. apply pbind_ext. intros t1 n1 _. rewrite run_skip_text. reflexivity. Qed.
Lemma more_eq w at_ a t : fine (PRep a) = true -> prun w at_ (PMore a) t =
  match prun w at_ a (skipped at_ t) with PFail => PMatch t [] | PFuel => PFuel | PMatch t1 n1 => pbind (prun w at_ (PMore a) t1) (fun t2 n2 => PMatch t2 (n1 ++ n2)) end.
Proof. intros H. rewrite run_more by exact H. rewrite run_skip_text. reflexivity. Qed.
