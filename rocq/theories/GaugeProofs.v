(** Proofs about the number in the first status of a session. *)
From Coq Require Import String Lia NArith.
From Verif Require Import AppsProofs.
From Verif Require Export GaugeSpec.
Local Open Scope list_scope.

(** ** The shape of a trace *)
Lemma trace_shape s a : trace s a = [] \/ exists x, Forall message_effect x /\ trace s a = [TotalAdd; ActiveAdd] ++ x ++ (if regular s a then [ActiveSub] else []).
Proof.
  destruct a as [d q pt | c]; unfold trace, regular.
  - right. destruct (http_request s d q pt) as [e o] eqn:E. apply http_trace in E. cbn [fst snd]. exists []. split; [constructor |]. rewrite E. destruct o; reflexivity.
  - destruct (socket s c) as [e o] eqn:E. apply websocket_trace in E. cbn [fst snd]. destruct E as [(_ & -> & _) | (_ & x & Hx & ->)]; [left; reflexivity | right]. exists x. split; [exact Hx |]. destruct o; reflexivity.
Qed.
(** where an effect can stand *)
Inductive placed (s : server) (a : activity) : list effect -> effect -> list effect -> Prop :=
| placed_first later : placed s a [] TotalAdd later
| placed_begin later : placed s a [TotalAdd] ActiveAdd later
| placed_message u r later : Forall message_effect u -> placed s a (TotalAdd :: ActiveAdd :: u) (Sent r) later
| placed_end u : Forall message_effect u -> regular s a = true -> placed s a (TotalAdd :: ActiveAdd :: u) ActiveSub [].
Lemma in_messages u e later x : Forall message_effect x -> x = u ++ e :: later -> Forall message_effect u /\ exists r, e = Sent r.
Proof.
  intros H ->. apply Forall_app in H. destruct H as [H1 H2]. split; [exact H1 |]. inversion H2 as [| ? ? He _]; subst. destruct e; try contradiction. eauto.
Qed.
Lemma trace_place s a u e later : trace s a = u ++ e :: later -> placed s a u e later.
Proof.
  intros E. destruct (trace_shape s a) as [H | (x & Hx & H)]; [rewrite H in E; destruct u; discriminate |]. rewrite H in E. clear H.
  destruct u as [| e0 u]; [injection E as <- _; constructor |]. injection E as <- E. destruct u as [| e0 u]; [injection E as <- _; constructor |]. injection E as <- E.
  destruct (regular s a) eqn:R.
  - destruct later as [| l later _] using rev_ind.
    + apply app_inj_tail in E. destruct E as [-> <-]. apply placed_end; assumption.
    + rewrite app_comm_cons, app_assoc in E. apply app_inj_tail in E. destruct E as [E _]. destruct (in_messages _ _ _ _ Hx E) as (Hu & r & ->). apply placed_message, Hu.
  - rewrite app_nil_r in E. destruct (in_messages _ _ _ _ Hx E) as (Hu & r & ->). apply placed_message, Hu.
Qed.
(** ** Histories *)
Lemma done_app i h k : done_by i (h ++ k) = done_by i h ++ done_by i k.
Proof. unfold done_by. rewrite filter_app, map_app. reflexivity. Qed.
Lemma done_own i e : done_by i [(i, e)] = [e].
Proof. unfold done_by. cbn [filter fst]. rewrite Nat.eqb_refl. reflexivity. Qed.
Lemma done_other i j e : j <> i -> done_by i [(j, e)] = [].
Proof. intros H. unfold done_by. cbn [filter fst]. apply Nat.eqb_neq in H. rewrite H. reflexivity. Qed.
Lemma done_in i e h : In e (done_by i h) <-> In (i, e) h.
Proof.
  unfold done_by. rewrite in_map_iff. split.
  - intros ([j e'] & <- & H). apply filter_In in H. destruct H as [H E]. apply Nat.eqb_eq in E. cbn [fst snd] in *. subst j. exact H.
  - intros H. exists (i, e). split; [reflexivity |]. apply filter_In. split; [exact H | apply Nat.eqb_refl].
Qed.
Section History.
Context (s : server) (acts : list activity).
Lemma history_part h k : history s acts (h ++ k) -> history s acts h.
Proof.
  intros [H1 H2]. split.
  - intros i e H. apply (H1 i e), in_or_app. left. exact H.
  - intros i a E. destruct (H2 i a E) as (later & T). rewrite done_app, <- app_assoc in T. eauto.
Qed.
Lemma history_place h i e k : history s acts (h ++ (i, e) :: k) -> exists a, nth_error acts i = Some a /\ placed s a (done_by i h) e (done_by i k ++ skipn (length (done_by i (h ++ (i, e) :: k))) (trace s a)).
Proof.
  intros [H1 H2]. assert (L : i < length acts) by (apply (H1 i e), in_or_app; right; left; reflexivity).
  destruct (nth_error acts i) as [a |] eqn:E; [| apply nth_error_None in E; lia]. exists a. split; [reflexivity |]. destruct (H2 i a E) as (later & T). apply trace_place.
  rewrite T at 1. rewrite T. rewrite skipn_app, skipn_all, Nat.sub_diag. cbn [skipn app]. change ((i, e) :: k) with ([(i, e)] ++ k). rewrite !done_app, done_own, <- !app_assoc. reflexivity.
Qed.
(** ** The gauge *)
Fixpoint level (g : N) (h : list (nat * effect)) : N :=
  match h with
  | [] => g
  | (_, ActiveAdd) :: h' => level (fetch_add g) h'
  | (_, ActiveSub) :: h' => level (fetch_sub g) h'
  | _ :: h' => level g h'
  end.
Lemma level_app h k : forall g, level g (h ++ k) = level (level g h) k.
Proof. induction h as [| [i e] h IH]; intros g; [reflexivity |]. cbn [app level]. destruct e; apply IH. Qed.
Definition is_add (e : effect) : bool := match e with ActiveAdd => true | _ => false end.
Definition is_sub (e : effect) : bool := match e with ActiveSub => true | _ => false end.
Definition opened (t : list effect) : bool := existsb is_add t && negb (existsb is_sub t).
Definition open_ones (h : list (nat * effect)) : list nat := filter (fun i => opened (done_by i h)) (seq 0 (length acts)).
Lemma no_sub u : Forall message_effect u -> existsb is_sub u = false /\ existsb is_add u = false.
Proof. induction 1 as [| e u H _ [IH1 IH2]]; [auto |]. destruct e; try contradiction. auto. Qed.
Lemma filter_same (p q : nat -> bool) l : (forall x, In x l -> p x = q x) -> filter p l = filter q l.
Proof. induction l as [| x l IH]; intros H; [reflexivity |]. cbn [filter]. rewrite (H x (or_introl eq_refl)), IH; [reflexivity |]. intros y Y. apply H. right. exact Y. Qed.
Lemma filter_one (p q : nat -> bool) i l : NoDup l -> In i l -> p i = false -> q i = true -> (forall x, x <> i -> p x = q x) -> length (filter q l) = S (length (filter p l)).
Proof.
  induction 1 as [| x l X _ IH]; intros I P Q A; [destruct I |]. cbn [filter]. destruct (Nat.eq_dec x i) as [-> | Ne].
  - rewrite P, Q. cbn [length]. f_equal. f_equal. apply filter_same. intros y Y. symmetry. apply A. intros ->. exact (X Y).
  - destruct I as [I | I]; [congruence |]. rewrite (A x Ne). destruct (q x); cbn [length]; rewrite (IH I P Q A); reflexivity.
Qed.
Lemma level_open h : (N.of_nat (length acts) < 2 ^ 64)%N -> history s acts h -> level 0 h = N.of_nat (length (open_ones h)).
Proof.
  intros S. induction h as [| [i e] h IH] using rev_ind; intros H.
  - unfold open_ones. rewrite (filter_same _ (fun _ => false)); [| reflexivity]. induction (seq 0 (length acts)) as [| x l IHl]; [reflexivity | exact IHl].
  - pose proof (history_place h i e [] H) as (a & E & P). specialize (IH (history_part h _ H)). rewrite level_app, IH. clear IH.
    assert (B : In i (seq 0 (length acts))) by (apply in_seq; split; [lia |]; cbn; apply nth_error_Some; congruence).
    assert (O : forall x, x <> i -> opened (done_by x h) = opened (done_by x (h ++ [(i, e)]))).
    { intros x Ne. rewrite done_app, (done_other x i e), app_nil_r by congruence. reflexivity. }
    assert (M : length (open_ones (h ++ [(i, e)])) <= length acts).
    { unfold open_ones. clear. rewrite <- (seq_length (length acts) 0) at 2. induction (seq 0 (length acts)) as [| x l IHl]; [apply le_n |]. cbn [filter length]. destruct (opened _); cbn [length]; lia. }
    inversion P as [later E1 E2 E3 | later E1 E2 E3 | u r later Hu E1 E2 E3 | u Hu R E1 E2 E3]; subst e; cbn [level].
    + f_equal. f_equal. apply filter_same. intros x _. destruct (Nat.eq_dec x i) as [-> | Ne]; [| apply O, Ne]. rewrite done_app, <- E1, done_own. reflexivity.
    + unfold fetch_add. assert (F : length (open_ones (h ++ [(i, ActiveAdd)])) = Datatypes.S (length (open_ones h))).
      { apply (filter_one _ _ i); [apply seq_NoDup | exact B | rewrite <- E1; reflexivity | rewrite done_app, <- E1, done_own; reflexivity | exact O]. }
      rewrite F in M. rewrite F, N.mod_small; lia.
    + f_equal. f_equal. apply filter_same. intros x _. destruct (Nat.eq_dec x i) as [-> | Ne]; [| apply O, Ne]. rewrite done_app, <- E1, done_own. destruct (no_sub u Hu) as [N1 N2].
      unfold opened. rewrite !existsb_app. cbn. rewrite N1. reflexivity.
    + unfold fetch_sub. assert (F : length (open_ones h) = Datatypes.S (length (open_ones (h ++ [(i, ActiveSub)])))).
      { apply (filter_one _ _ i); [apply seq_NoDup | exact B | | | intros x Ne; symmetry; apply O, Ne].
        - rewrite done_app, <- E1, done_own. unfold opened. rewrite !existsb_app. cbn. rewrite orb_true_r. reflexivity.
        - rewrite <- E1. destruct (no_sub u Hu) as [N1 N2]. unfold opened. cbn. rewrite N1. reflexivity. }
      rewrite F. replace (N.of_nat (Datatypes.S (length (open_ones (h ++ [(i, ActiveSub)])))) + (2 ^ 64 - 1))%N with (N.of_nat (length (open_ones (h ++ [(i, ActiveSub)]))) + 1 * 2 ^ 64)%N by lia.
      rewrite N.mod_add by discriminate. rewrite N.mod_small; lia.
Qed.
(** ** The statuses *)
Fixpoint owned (g : N) (own : nat -> N) (h : list (nat * effect)) : nat -> N :=
  match h with
  | [] => own
  | (i, ActiveAdd) :: h' => owned (fetch_add g) (remember own i g) h'
  | (_, ActiveSub) :: h' => owned (fetch_sub g) own h'
  | _ :: h' => owned g own h'
  end.
Lemma status_where h : forall g own i t, In (i, t) (statuses_from g own h) <->
  exists b k, h = b ++ (i, Sent SRunning) :: k /\ t = running_text (N.to_nat (owned g own b i)).
Proof.
  induction h as [| [j e] h IH]; intros g own i t; [split; [intros [] | intros (b & k & E & _); destruct b; discriminate E] |].
  assert (Step : forall g' own', (forall b, owned g own ((j, e) :: b) = owned g' own' b) -> ((j, e) <> (i, Sent SRunning)) ->
    (In (i, t) (statuses_from g' own' h) <-> exists b k, (j, e) :: h = b ++ (i, Sent SRunning) :: k /\ t = running_text (N.to_nat (owned g own b i)))).
  { intros g' own' O Ne. rewrite IH. split.
    - intros (b & k & -> & ->). exists ((j, e) :: b), k. rewrite O. auto.
    - intros (b & k & E & ->). destruct b as [| y b]; injection E as E1 E2; [congruence |]. subst y. exists b, k. rewrite O. auto. }
  destruct e as [| | | []]; cbn [statuses_from]; try (apply Step; [reflexivity | discriminate]).
  cbn [In]. split.
  - intros [E | H].
    + injection E as -> <-. exists [], h. auto.
    + apply IH in H. destruct H as (b & k & -> & ->). exists ((j, Sent SRunning) :: b), k. auto.
  - intros (b & k & E & ->). destruct b as [| y b].
    + injection E as -> _. left. reflexivity.
    + injection E as <- E. right. apply IH. exists b, k. auto.
Qed.
Lemma owned_kept i b : ~ In (i, ActiveAdd) b -> forall g own, owned g own b i = own i.
Proof.
  induction b as [| [j e] b IH]; intros N g own; [reflexivity |]. assert (N' : ~ In (i, ActiveAdd) b) by (intros X; apply N; right; exact X).
  destruct e; cbn [owned]; rewrite (IH N'); try reflexivity. unfold remember. destruct (Nat.eqb_spec i j) as [-> | _]; [| reflexivity]. exfalso. apply N. left. reflexivity.
Qed.
Lemma owned_at b1 : forall g own i b2, ~ In (i, ActiveAdd) b2 -> owned g own (b1 ++ (i, ActiveAdd) :: b2) i = level g b1.
Proof.
  induction b1 as [| [j e] b1 IH]; intros g own i b2 N; [cbn [app owned level]; rewrite (owned_kept i b2 N); unfold remember; rewrite Nat.eqb_refl; reflexivity |].
  destruct e; cbn [app owned level]; apply IH, N.
Qed.
Lemma open_iff h i : history s acts h -> In i (open_ones h) <-> begun i h /\ (still_running s acts i h \/ broken_off s acts i h).
Proof.
  intros H. unfold open_ones. rewrite filter_In, in_seq. unfold opened, begun. rewrite <- (done_in i ActiveAdd h).
  assert (A : existsb is_add (done_by i h) = true <-> In ActiveAdd (done_by i h)).
  { rewrite existsb_exists. split; [intros (e & I & E); destruct e; try discriminate; exact I | intros I; exists ActiveAdd; auto]. }
  rewrite andb_true_iff, A, negb_true_iff. split.
  - intros (L & I & E). split; [exact I |]. destruct (nth_error acts i) as [a |] eqn:Ea; [| apply nth_error_None in Ea; lia]. destruct (proj2 H i a Ea) as (later & T). destruct later as [| e later]; [right | left; exists a, e, later; auto].
    rewrite app_nil_r in T. exists a. split; [exact Ea |]. split; [exact T |]. destruct (regular s a) eqn:R; [| reflexivity]. exfalso. rewrite <- T in I, E. destruct (trace_shape s a) as [Z | (x & _ & Z)]; rewrite Z in I, E; [destruct I |].
    rewrite R, !existsb_app in E. cbn in E. rewrite orb_true_r in E. discriminate.
  - intros (I & C). assert (Ei : exists a, nth_error acts i = Some a) by (destruct C as [(a & e & later & Ea & _) | (a & Ea & _)]; eauto). destruct Ei as (a & Ea).
    split; [split; [lia |]; cbn; apply nth_error_Some; congruence |]. split; [exact I |]. destruct C as [(a' & e & later & Ea' & T) | (a' & Ea' & T & R)]; rewrite Ea in Ea'; injection Ea' as <-.
    + apply trace_place in T. inversion T as [l E1 E2 E3 | l E1 E2 E3 | u r l Hu E1 E2 E3 | u Hu R E1 E2 E3]; try reflexivity; cbn; apply (no_sub u Hu).
    + rewrite <- T. destruct (trace_shape s a) as [Z | (x & Hx & Z)]; rewrite Z; [reflexivity |]. rewrite R, app_nil_r. cbn. apply (no_sub x Hx).
Qed.
Lemma status_number h i t : (N.of_nat (length acts) < 2 ^ 64)%N -> history s acts h -> In (i, t) (statuses h) ->
  exists before after others, h = before ++ (i, ActiveAdd) :: after /\ NoDup others /\
    (forall j, In j others <-> j <> i /\ begun j before /\ (still_running s acts j before \/ broken_off s acts j before)) /\
    t = running_text (length others).
Proof.
  intros S H I. apply status_where in I. destruct I as (b & k & -> & ->). destruct (history_place b i _ k H) as (a & Ea & P).
  inversion P as [l E1 E2 E3 | l E1 E2 E3 | u r l Hu E1 E2 E3 | u Hu R E1 E2 E3]. subst r.
  assert (A : In (i, ActiveAdd) b) by (apply done_in; rewrite <- E1; right; left; reflexivity).
  apply in_split in A. destruct A as (b1 & b2 & ->).
  assert (Hb : history s acts (b1 ++ (i, ActiveAdd) :: b2)) by exact (history_part _ _ H).
  destruct (history_place b1 i _ b2 Hb) as (a' & Ea' & P'). inversion P' as [l' F1 F2 F3 | l' F1 F2 F3 | u' r l' Hu' F1 F2 F3 | u' Hu' R F1 F2 F3].
  assert (N2 : ~ In (i, ActiveAdd) b2).
  { rewrite <- done_in. change ((i, ActiveAdd) :: b2) with ([(i, ActiveAdd)] ++ b2) in E1. rewrite !done_app, done_own, <- F1 in E1. injection E1 as ->. intros X. rewrite Forall_forall in Hu. exact (Hu _ X). }
  rewrite (owned_at b1 _ _ i b2 N2). assert (H1 : history s acts b1) by exact (history_part _ _ Hb). rewrite (level_open b1 S H1), Nat2N.id.
  exists b1, (b2 ++ (i, Sent SRunning) :: k), (open_ones b1). split; [rewrite <- app_assoc; reflexivity |]. split; [apply NoDup_filter, seq_NoDup |]. split; [| reflexivity].
  intros j. rewrite (open_iff b1 j H1). split; [| tauto]. intros (B & C). split; [| auto]. intros ->. apply done_in in B. rewrite <- F1 in B. destruct B as [B | []]. discriminate B.
Qed.
Lemma status_told h i : In (i, Sent SRunning) h -> exists t, In (i, t) (statuses h).
Proof. intros I. apply in_split in I. destruct I as (b & k & ->). eexists. apply status_where. eauto. Qed.
End History.
Lemma regular_number s acts h i t : (N.of_nat (length acts) < 2 ^ 64)%N -> history s acts h -> Forall (fun a => regular s a = true) acts -> In (i, t) (statuses h) ->
  exists before after others, h = before ++ (i, ActiveAdd) :: after /\ NoDup others /\
    (forall j, In j others <-> j <> i /\ begun j before /\ still_running s acts j before) /\ t = running_text (length others).
Proof.
  intros S H R I. destruct (status_number s acts h i t S H I) as (b & k & o & E & N & O & T). exists b, k, o. split; [exact E |]. split; [exact N |]. split; [| exact T].
  intros j. rewrite O. split; [| tauto]. intros (Ne & B & [C | (a & Ea & _ & Ra)]); [auto |]. rewrite Forall_forall in R. apply nth_error_In in Ea. rewrite (R a Ea) in Ra. discriminate.
Qed.
(** ** Examples *)
(** one session that ended with a parse error, then another *)
Definition bad_then_good : list activity :=
  [Socket (mkClient (Some (Some (str "("))) (fun _ => true) (fun _ => false) (fun _ => false) (fun _ => None));
   Socket (mkClient (Some (Some (str "a"))) (fun _ => true) (fun _ => false) (fun _ => false) (fun _ => None))].
Definition bad_history : list (nat * effect) :=
  [(0, TotalAdd); (0, ActiveAdd); (0, Sent SRunning); (0, Sent SParseError); (0, Sent (SErrorLog 1)); (1, TotalAdd); (1, ActiveAdd); (1, Sent SRunning)].
Lemma first_steps s t : exists later, trace s (Socket (mkClient (Some (Some t)) (fun _ => true) (fun _ => false) (fun _ => false) (fun _ => None))) = [TotalAdd; ActiveAdd; Sent SRunning] ++ later.
Proof.
  unfold trace, socket, run_websocket, run_websocket_from. cbn [first_message]. unfold sbind at 1, sdo. unfold sbind at 1, ssend at 1. cbn [send_ok].
  match goal with |- context [?m 1] => destruct (m 1) as [[x n] [r | r]] end; cbn [fst]; eexists; reflexivity.
Qed.
Lemma stale_number s : exists acts h t, N.of_nat (length acts) = 2%N /\ history s acts h /\ In (1, t) (statuses h) /\ t = running_text 1 /\
  forall j, j <> 1 -> ~ still_running s acts j h.
Proof.
  exists bad_then_good, bad_history, (running_text 1). split; [reflexivity |].
  assert (T0 : trace s (nth 0 bad_then_good (Http None [] false)) = done_by 0 bad_history) by (vm_compute; reflexivity).
  split; [split |].
  - intros i e H. unfold bad_history in H. repeat (destruct H as [H | H]; [injection H as <- _; cbn; lia |]). destruct H.
  - intros [| [| i]] a E; cbn in E; [injection E as <-; exists []; rewrite app_nil_r; exact T0 | injection E as <- | destruct i; discriminate]. apply first_steps.
  - split; [right; left; reflexivity |]. split; [reflexivity |]. intros [| [| j]] Ne (a & e & later & E & T); [| congruence | destruct j; discriminate].
    injection E as <-. assert (X : done_by 0 bad_history ++ e :: later = done_by 0 bad_history) by (rewrite <- T; exact T0). apply (f_equal (@length effect)) in X. rewrite app_length in X. cbn [length] in X. clear - X. lia.
Qed.
Lemma two_at_once s d q1 q2 : exists h, history s [Http d q1 false; Socket (mkClient (Some (Some q2)) (fun _ => true) (fun _ => false) (fun _ => false) (fun _ => None))] h /\
  In (1, str "Running query (1 other(s) active)...") (statuses h).
Proof.
  exists [(0, TotalAdd); (1, TotalAdd); (0, ActiveAdd); (1, ActiveAdd); (1, Sent SRunning)]. split; [split |].
  - intros i e H. repeat (destruct H as [H | H]; [injection H as <- _; cbn; lia |]). destruct H.
  - intros [| [| i]] a E; cbn in E; [injection E as <- | injection E as <- | destruct i; discriminate].
    + unfold trace. destruct (http_request s d q1 false) as [e o] eqn:Eh. apply http_trace in Eh. cbn [fst]. rewrite Eh. eexists. reflexivity.
    + apply first_steps.
  - vm_compute. left. reflexivity.
Qed.
