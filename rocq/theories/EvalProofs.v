(** The evaluator as a stream of responses (query.rs:217-657). *)
From Verif Require Export OutProofs.
From Coq Require Import Permutation Sorted.

(** ** A complete search, counted *)
Inductive runs : nat -> pstate -> list (list word) -> option (list word) -> Prop :=
| runs_last s res : turn s = Ok (None, res) -> runs 1 s [] res
| runs_step n s s1 r out res : turn s = Ok (Some s1, r) -> runs n s1 out res -> runs (S n) s (olist r ++ out) res.
Lemma exec_runs s out s1 res : exec s out s1 -> turn s1 = Ok (None, res) -> exists n, runs n s out res.
Proof.
  induction 1 as [s|s s1 r out s2 H1 H2 IH]; intros H.
  - exists 1. constructor. exact H.
  - destruct (IH H) as (n & Hn). exists (S n). econstructor; eauto.
Qed.
Lemma turn_words p p' r : turn p = Ok (Some p', r) -> p_words p' = p_words p.
Proof.
  unfold turn. intros H.
  destruct (index (p_queue p) 0) as [ph| | |]; cbn [bind] in H; try discriminate.
  destruct (index (p_layers p) (p_layer p)) as [prev| | |]; cbn [bind] in H; try discriminate.
  destruct (index (p_layers p) (p_layer p + 1)) as [nxt| | |]; cbn [bind] in H; try discriminate.
  destruct (step_matchers _ _ _ _) as [[[rows ex] pa]| | |]; cbn [bind] in H; try discriminate.
  match type of H with bind ?x _ = _ => destruct x as [result| | |]; cbn [bind] in H; try discriminate end.
  destruct ((pa || ex) && (p_layer p + 1 <? depth ph)).
  - match type of H with bind ?x _ = _ => destruct x as [l| | |]; cbn [bind] in H; try discriminate end. injection H as <- _. reflexivity.
  - match type of H with bind ?x _ = _ => destruct x as [[[[[q ls] li] hp]|]| | |]; cbn [bind] in H; try discriminate end. injection H as <- _. reflexivity.
Qed.

Lemma found_len {X} (r : option X) : found r = length (opt_list r).
Proof. destruct r; reflexivity. Qed.

Lemma phrase_loop_spec n s out res : runs n s out res -> forall fuel d count dl k, n <= fuel ->
  (exists s' n' d', phrase_loop fuel d count dl k s = Ok (QPhrase s', k, RTimeout, d') /\ n' < n /\ runs n' s' out res /\ p_words s' = p_words s /\ d <> None) \/
  (exists ws out' s' n' d', out = ws :: out' /\ phrase_loop fuel d count dl k s = Ok (QPhrase s', S k, RMatch ws, d') /\ n' < n /\ runs n' s' out' res /\ p_words s' = p_words s /\ (d = None -> d' = None)) \/
  (exists d', out = [] /\ phrase_loop fuel d count dl k s = Ok (QDone, k + found res, RComplete (AllPhrases (k + found res) dl), d') /\ (d = None -> d' = None)).
Proof.
  induction 1 as [s res H|n s s1 r out res H Hr IH]; intros [|fuel] d count dl k Hf; try lia; cbn [phrase_loop]; rewrite H; cbn [bind].
  - right; right. exists d. auto.
  - pose proof (turn_words _ _ _ H) as Hw. destruct r as [ws|]; cbn [olist app found].
    + right; left. exists ws, out, s1, n, d. replace (k + 1) with (S k) by lia. split; [reflexivity|]. split; [reflexivity|]. auto.
    + replace (k + 0) with k by lia.
      destruct (if S count mod 256 =? 0 then look d else (false, d)) as [ex1 d1] eqn:El.
      assert (Hd : d = None -> ex1 = false /\ d1 = None).
      { intros ->. destruct (S count mod 256 =? 0); cbn in El; injection El as <- <-; auto. }
      destruct ex1.
      * left. exists s1, n, d1. split; [reflexivity|]. split; [lia|]. split; [exact Hr|]. split; [exact Hw|]. intros E. destruct (Hd E). discriminate.
      * destruct (IH fuel d1 (S count) dl k) as [(s' & n' & d' & E & A1 & A2 & A3 & A4)|[(ws & out' & s' & n' & d' & -> & E & A1 & A2 & A3 & A4)|(d' & -> & E & A)]]; [lia| | |].
        -- left. exists s', n', d'. split; [exact E|]. split; [lia|]. split; [exact A2|]. split; [congruence|]. intros ->. destruct (Hd eq_refl). auto.
        -- right; left. exists ws, out', s', n', d'. split; [reflexivity|]. split; [exact E|]. split; [lia|]. split; [exact A2|]. split; [congruence|]. intros ->. apply A4, Hd. reflexivity.
        -- right; right. exists d'. split; [reflexivity|]. split; [exact E|]. intros ->. apply A, Hd. reflexivity.
Qed.

Lemma filter_le {X} (f : X -> bool) l : length (filter f l) <= length l.
Proof. induction l as [|x l IH]; [apply le_n|]. cbn. destruct (f x); cbn; lia. Qed.

(** ** What the evaluator still owes *)
Section eval.
Variables (ex : expression) (exs : list expression) (wl : list word) (dl ml F : nat) (stuck : bool).
Hypothesis Hg : Forall good (ex :: exs).
Hypothesis Hf : fits_all ml wl.
Let sgl := dl <=? 1.

Definition owes_phrases (ph : qphase) (n : nat) (full : list response) : Prop :=
  match ph with
  | QDone => full = []
  | QPhrase p => if stuck then full = [] else p_words p <> [] /\ exists k out res, k <= F /\ runs k p out res /\
      full = map RMatch out ++ [RComplete (AllPhrases (n + length (out ++ opt_list res)) dl)]
  | QWord _ _ => False
  end.
(** What follows the single words, [N] of them. *)
Definition owes_after (N : nat) (tail : list response) : Prop :=
  if sgl then tail = [RComplete (AllSingle N)]
  else exists ph r t2, tail = r :: t2 /\ is_match r = 0 /\ r <> RTimeout /\ owes_phrases ph N t2 /\
    forall m rest, ran sgl ex ml wl m -> chain sgl ml (alive m) exs rest -> begin_phrases dl (m :: rest) = Ok (ph, r).
Definition owes (ph : qphase) (n : nat) (full : list response) : Prop :=
  match ph with
  | QWord ms wl' => wl' = wl /\ exists m rest pre ws tail, ms = m :: rest /\ wl = pre ++ ws /\ ran sgl ex ml pre m /\ chain sgl ml (alive m) exs rest /\
      full = map (fun w => RMatch [w]) (filter (all_hit (ex :: exs)) ws) ++ tail /\ owes_after (n + length (filter (all_hit (ex :: exs)) ws)) tail
  | _ => owes_phrases ph n full
  end.
Lemma phrases_owes ph n full : owes_phrases ph n full -> owes ph n full.
Proof. destruct ph; cbn; auto; contradiction. Qed.

Lemma match_filter_nil {X} (f : X -> bool) a b : filter f a = [] -> filter f (a ++ b) = filter f b.
Proof. intros H. rewrite filter_app, H. reflexivity. Qed.

Lemma owes_done ph n : stuck = false -> owes ph n [] -> ph = QDone.
Proof.
  intros Hs. destruct ph as [ms wl'|p|]; cbn; [|rewrite Hs; intros (_ & k & out & res & _ & _ & E); destruct out; discriminate|auto].
  intros (_ & m & rest & pre & ws & tail & _ & _ & _ & _ & E & Ht). symmetry in E. apply app_eq_nil in E. destruct E as [_ ->].
  unfold owes_after in Ht. destruct sgl; [discriminate|]. destruct Ht as (? & ? & ? & E & _). discriminate.
Qed.
Lemma phrases_no_timeout ph n full : owes_phrases ph n full -> ~ In RTimeout full.
Proof.
  destruct ph as [ms wl'|p|]; cbn; [contradiction| |intros -> []]. destruct stuck; [intros -> []|].
  intros (_ & k & out & res & _ & _ & ->) H. apply in_app_iff in H. destruct H as [H|[H|[]]]; [|discriminate]. apply in_map_iff in H. destruct H as (? & H & _). discriminate.
Qed.
Lemma owes_no_timeout ph n full : owes ph n full -> ~ In RTimeout full.
Proof.
  destruct ph as [ms wl'|p|]; [|exact (phrases_no_timeout (QPhrase p) n full)|exact (phrases_no_timeout QDone n full)]. cbn.
  intros (_ & m & rest & pre & ws & tail & _ & _ & _ & _ & -> & Ht) H. apply in_app_iff in H. destruct H as [H|H].
  - apply in_map_iff in H. destruct H as (? & H & _). discriminate.
  - unfold owes_after in Ht. destruct sgl; [subst tail; destruct H as [H|[]]; discriminate|]. destruct Ht as (ph & r & t2 & -> & Hr & Hrt & Hp & _).
    destruct H as [H|H]; [congruence|exact (phrases_no_timeout _ _ _ Hp H)].
Qed.

Definition ev_ok (rl : option nat) (ev : evaluator) (full : list response) : Prop :=
  depth_limit ev = dl /\ results_limit ev = rl /\ owes (q_phase ev) (results_count ev) full.

Lemma call_spec fuel rl d ev full : F <= fuel -> ev_ok rl ev full -> (stuck = true -> full <> []) ->
  (exists ev' d', next_within_deadline fuel d ev = Ok (ev', RTimeout, d') /\ ev_ok rl ev' full /\ results_count ev' = results_count ev /\ d <> None /\ reached rl (results_count ev) = false /\ full <> []) \/
  (exists ev' d', full = [] /\ next_within_deadline fuel d ev = Ok (ev', RComplete CalledRepeatedly, d') /\ ev_ok rl ev' [] /\ results_count ev' = results_count ev) \/
  (exists ev' d', full <> [] /\ reached rl (results_count ev) = true /\ next_within_deadline fuel d ev = Ok (ev', RComplete (FoundStopping (results_count ev)), d') /\ ev_ok rl ev' [] /\ results_count ev' = results_count ev) \/
  (exists ev' d' r full', full = r :: full' /\ reached rl (results_count ev) = false /\ next_within_deadline fuel d ev = Ok (ev', r, d') /\ ev_ok rl ev' full' /\ (full' <> [] -> results_count ev' = results_count ev + is_match r)).
Proof.
  intros HF (Hdl & Hrl & Ho) Hst. pose proof (Forall_inv Hg) as Hgx. pose proof (Forall_inv_tail Hg) as Hgs. unfold next_within_deadline. rewrite Hdl, Hrl in *. set (n := results_count ev) in *. fold sgl.
  destruct (q_phase ev) as [ms wl'|p|] eqn:Ep.
  - (* words *)
    replace (match rl with Some k => k <=? n | None => false end) with (reached rl n) by reflexivity.
    destruct Ho as (-> & m & rest & pre & ws & tail & -> & Hwl & Hr & Hc & -> & Ht).
    assert (Hne : map (fun w => RMatch [w]) (filter (all_hit (ex :: exs)) ws) ++ tail <> []).
    { intros E. apply app_eq_nil in E. destruct E as [_ ->]. unfold owes_after in Ht. destruct sgl; [discriminate|]. destruct Ht as (? & ? & ? & E & _). discriminate. }
    destruct (reached rl n) eqn:Er.
    + right; right; left. eexists _, _. split; [exact Hne|]. split; [reflexivity|]. split; [reflexivity|]. split; [split; [reflexivity|split; reflexivity]|reflexivity].
    + destruct (word_loop_spec sgl ml ex exs Hgx Hgs (S (length wl)) pre ws d m rest) as (m' & ms' & r & d1 & done & rest' & E & Hws & Hr' & Hc' & Hd & Hm); [rewrite <- Hwl; exact Hf|exact Hr|exact Hc|rewrite Hwl, app_length; lia|].
      rewrite <- Hwl in E. rewrite E. cbn [bind]. destruct r as [w|].
      * destruct Hm as (done0 & -> & G1 & G2). right; right; right. eexists _, _, _, _. split; [|split; [reflexivity|split; [reflexivity|]]].
        -- rewrite Hws, <- app_assoc, match_filter_nil by exact G1. cbn [app]. cbn [filter]. rewrite G2. cbn [map app]. reflexivity.
        -- split; [|intros _; cbn; fold n; lia]. split; [reflexivity|]. split; [reflexivity|]. cbn [q_phase owes results_count]. split; [reflexivity|].
           exists m', ms', (pre ++ done0 ++ [w]), rest', tail. split; [reflexivity|]. split; [rewrite Hwl, Hws, <- !app_assoc; reflexivity|].
           split; [exact Hr'|]. split; [exact Hc'|]. split; [reflexivity|].
           replace (S n + length (filter (all_hit (ex :: exs)) rest')) with (n + length (filter (all_hit (ex :: exs)) ws)); [exact Ht|].
           rewrite Hws, <- app_assoc, match_filter_nil by exact G1. cbn [app filter]. rewrite G2. cbn [length]. lia.
      * destruct Hm as [G1 G2]. destruct (look d1) as [b d2] eqn:El. pose proof (look_spec d1 b d2 El) as [_ L2].
        destruct b.
        -- left. eexists _, _. split; [reflexivity|]. split; [|split; [reflexivity|split; [intros ->; destruct (L2 (Hd eq_refl)); discriminate|auto]]].
           split; [reflexivity|]. split; [reflexivity|]. cbn [q_phase owes results_count]. split; [reflexivity|].
           exists m', ms', (pre ++ done), rest', tail. split; [reflexivity|]. split; [rewrite Hwl, Hws, <- app_assoc; reflexivity|].
           split; [exact Hr'|]. split; [exact Hc'|]. split; rewrite Hws, match_filter_nil in * by exact G1; [reflexivity|exact Ht].
        -- assert (Hrest : rest' = []).
           { destruct G2 as [G2|G2]; [exact G2|]. unfold expired in G2. subst d1. cbn in El. discriminate. }
           subst rest'. rewrite app_nil_r in Hws. subst done. rewrite <- Hwl in Hr'. rewrite G1 in *. cbn [map app length] in *. rewrite Nat.add_0_r in Ht.
           right; right; right. unfold owes_after in Ht. destruct sgl eqn:Es.
           ++ subst tail. eexists _, _, _, _. split; [reflexivity|]. split; [reflexivity|]. split; [reflexivity|]. split; [|intros H; congruence].
              split; [reflexivity|]. split; reflexivity.
           ++ destruct Ht as (ph & r & t2 & -> & Hr0 & _ & Ht & HB). rewrite (HB m' ms' Hr' Hc'). cbn [bind].
              eexists _, _, _, _. split; [reflexivity|]. split; [reflexivity|]. split; [reflexivity|]. split; [|intros _; cbn; rewrite Hr0; fold n; lia].
              split; [reflexivity|]. split; [reflexivity|]. apply phrases_owes. exact Ht.
  - (* phrases *)
    replace (match rl with Some k => k <=? n | None => false end) with (reached rl n) by reflexivity.
    cbn [owes owes_phrases] in Ho. destruct stuck eqn:Estuck; [destruct (Hst eq_refl Ho)|].
    destruct Ho as (Hpw & k & out & res & Hk & Hr & ->).
    assert (Hne : map RMatch out ++ [RComplete (AllPhrases (n + length (out ++ opt_list res)) dl)] <> []) by (destruct out; discriminate).
    destruct (reached rl n) eqn:Er.
    + right; right; left. eexists _, _. split; [exact Hne|]. split; [reflexivity|]. split; [reflexivity|]. split; [split; [reflexivity|split; reflexivity]|reflexivity].
    + destruct (p_words p) as [|w0 wr] eqn:Epw; [congruence|].
      destruct (phrase_loop_spec k p out res Hr fuel d 0 dl n) as [(s' & n' & d' & E & A1 & A2 & A3 & A4)|[(wsx & out' & s' & n' & d' & -> & E & A1 & A2 & A3 & A4)|(d' & -> & E & A)]]; [lia| | |]; rewrite E; cbn [bind].
      * left. eexists _, _. split; [reflexivity|]. split; [|auto]. split; [reflexivity|]. split; [reflexivity|]. cbn [q_phase owes owes_phrases results_count]. rewrite Estuck.
        split; [congruence|]. exists n', out, res. split; [lia|]. auto.
      * right; right; right. eexists _, _, _, _. split; [reflexivity|]. split; [reflexivity|]. split; [reflexivity|]. split; [|intros _; cbn; fold n; lia].
        split; [reflexivity|]. split; [reflexivity|]. cbn [q_phase owes owes_phrases results_count]. rewrite Estuck. split; [congruence|]. exists n', out', res. split; [lia|].
        split; [exact A2|]. cbn [app length]. rewrite <- plus_n_Sm. reflexivity.
      * right; right; right. eexists _, _, _, _. cbn [map app]. split; [reflexivity|]. split; [reflexivity|]. split; [rewrite found_len; reflexivity|]. split; [|congruence].
        split; [reflexivity|]. split; reflexivity.
  - (* done *)
    cbn in Ho. subst full. replace (match rl with Some _ => false | None => false end) with false by (destruct rl; reflexivity).
    right; left. eexists _, _. split; [reflexivity|]. split; [reflexivity|]. split; [|reflexivity]. split; [reflexivity|]. split; reflexivity.
Qed.

Lemma limited_nil rl n : limited rl n [] = [].
Proof. reflexivity. Qed.
Lemma firstn_repeat {X} (x : X) k n : k <= n -> firstn k (repeat x n) = repeat x k.
Proof. revert n. induction k as [|k IH]; intros [|n] H; cbn; auto; [lia|]. rewrite IH by lia. reflexivity. Qed.

Hypothesis Hstuck : stuck = false.
Lemma calls_spec fuel rl : F <= fuel -> forall ds ev full, ev_ok rl ev full ->
  exists ev' rs, calls fuel ds ev = Ok (ev', rs) /\ length rs = length ds /\
    filter no_timeout rs = firstn (length ds - timeouts rs) (limited rl (results_count ev) full ++ repeat (RComplete CalledRepeatedly) (length ds)) /\
    Forall2 (fun d r => d = None -> r <> RTimeout) ds rs.
Proof.
  intros HF ds. induction ds as [|d ds IH]; intros ev full Hev; cbn [calls].
  - exists ev, []. repeat split. constructor.
  - destruct (call_spec fuel rl d ev full HF Hev) as [(ev1 & d' & E & H1 & Hn & Hd & _)|[(ev1 & d' & -> & E & H1 & Hn)|[(ev1 & d' & Hne & Er & E & H1 & Hn)|(ev1 & d' & r & full' & -> & Er & E & H1 & Hn)]]]; [congruence| | | |]; rewrite E; cbn [bind].
    + destruct (IH ev1 full H1) as (ev' & rs & E2 & Hl & Hfil & Ht). rewrite E2. cbn [bind]. eexists _, _. split; [reflexivity|]. split; [cbn; lia|]. split.
      * cbn [filter no_timeout]. rewrite Hfil. unfold timeouts. cbn [filter no_timeout negb length]. fold (timeouts rs). rewrite Hn. rewrite Nat.sub_succ.
        cbn [repeat]. rewrite !firstn_app. f_equal. remember (length ds - timeouts rs - length (limited rl (results_count ev) full)) as j eqn:Ej.
        change (RComplete CalledRepeatedly :: repeat (RComplete CalledRepeatedly) (length ds)) with (repeat (RComplete CalledRepeatedly) (S (length ds))).
        rewrite !firstn_repeat by lia. reflexivity.
      * constructor; [intros ->; congruence|exact Ht].
    + destruct (IH ev1 [] H1) as (ev' & rs & E2 & Hl & Hfil & Ht). rewrite E2. cbn [bind]. eexists _, _. split; [reflexivity|]. split; [cbn; lia|]. split.
      * cbn [filter no_timeout]. rewrite Hfil. unfold timeouts. cbn [filter no_timeout negb]. fold (timeouts rs). cbn [limited app length].
        assert (Htl : timeouts rs <= length ds). { rewrite <- Hl. unfold timeouts. apply filter_le. }
        replace (S (length ds) - timeouts rs) with (S (length ds - timeouts rs)) by lia. cbn [repeat firstn]. reflexivity.
      * constructor; [discriminate|exact Ht].
    + destruct (IH ev1 [] H1) as (ev' & rs & E2 & Hl & Hfil & Ht). rewrite E2. cbn [bind]. eexists _, _. split; [reflexivity|]. split; [cbn; lia|]. split.
      * cbn [filter no_timeout]. rewrite Hfil. unfold timeouts. cbn [filter no_timeout negb]. fold (timeouts rs).
        assert (Htl : timeouts rs <= length ds). { rewrite <- Hl. unfold timeouts. apply filter_le. }
        destruct full as [|r full]; [congruence|]. cbn [limited]. rewrite Er. cbn [app length].
        replace (S (length ds) - timeouts rs) with (S (length ds - timeouts rs)) by lia. cbn [firstn]. f_equal.
        rewrite !firstn_repeat by (cbn; lia). reflexivity.
      * constructor; [discriminate|exact Ht].
    + assert (Hnr : r <> RTimeout -> no_timeout r = true) by (destruct r; cbn; congruence).
      assert (Hrt : r <> RTimeout). { intros ->. destruct Hev as (_ & _ & Ho). apply (owes_no_timeout _ _ _ Ho). left. reflexivity. }
      destruct (IH ev1 full' H1) as (ev' & rs & E2 & Hl & Hfil & Ht). rewrite E2. cbn [bind]. eexists _, _. split; [reflexivity|]. split; [cbn; lia|]. split.
      * cbn [filter]. rewrite (Hnr Hrt). rewrite Hfil. unfold timeouts. cbn [filter]. rewrite (Hnr Hrt). cbn [negb]. fold (timeouts rs).
        assert (Htl : timeouts rs <= length ds). { rewrite <- Hl. unfold timeouts. apply filter_le. }
        cbn [limited]. rewrite Er. cbn [app length]. replace (S (length ds) - timeouts rs) with (S (length ds - timeouts rs)) by lia. cbn [firstn]. f_equal.
        assert (El : limited rl (results_count ev1) full' = limited rl (results_count ev + is_match r) full') by (destruct full'; [reflexivity|rewrite Hn by discriminate; reflexivity]).
        rewrite El. rewrite !firstn_app. f_equal. rewrite !firstn_repeat by (cbn; lia). reflexivity.
      * constructor; [intros _; exact Hrt|exact Ht].
Qed.
Lemma iterate_spec fuel rl : F <= fuel -> forall k ev full, ev_ok rl ev full ->
  exists ev', iterate fuel k ev = Ok (ev', firstn k (limited rl (results_count ev) full)) /\
    (length (limited rl (results_count ev) full) <= k <-> q_phase ev' = QDone).
Proof.
  intros HF k. induction k as [|k IH]; intros ev full Hev.
  - exists ev. split; [cbn; destruct (q_phase ev); reflexivity|]. destruct Hev as (_ & _ & Ho). destruct full as [|r full].
    + split; [intros _; exact (owes_done _ _ Hstuck Ho)|intros _; apply le_n].
    + split; intros H; exfalso; [cbn in H; destruct (reached rl (results_count ev)); cbn in H; lia|]. rewrite H in Ho. discriminate Ho.
  - destruct (q_phase ev) eqn:Ep.
    3:{ destruct Hev as (_ & _ & Ho). rewrite Ep in Ho. cbn in Ho. subst full. exists ev. cbn. rewrite Ep. split; [reflexivity|]. split; [reflexivity|lia]. }
    + assert (HI : iterate fuel (S k) ev = bind (next_within_deadline fuel None ev) (fun '(ev', r, _) => bind (iterate fuel k ev') (fun '(ev'', rs) => Ok (ev'', r :: rs)))) by (cbn [iterate]; rewrite Ep; reflexivity).
      rewrite HI. clear HI. destruct (call_spec fuel rl None ev full HF Hev) as [(ev1 & d' & E & H1 & Hn & Hd & _)|[(ev1 & d' & -> & E & H1 & Hn)|[(ev1 & d' & Hne & Er & E & H1 & Hn)|(ev1 & d' & r & full' & -> & Er & E & H1 & Hn)]]]; [congruence|congruence| | |].
      * exfalso. destruct Hev as (_ & _ & Ho). pose proof (owes_done _ _ Hstuck Ho). congruence.
      * rewrite E. cbn [bind]. destruct (IH ev1 [] H1) as (ev' & E2 & Hq). rewrite E2. cbn [bind]. eexists. destruct full; [congruence|]. cbn [limited]. rewrite Er.
        split; [cbn; destruct k; reflexivity|]. split; [intros _; apply Hq; cbn; lia|cbn; lia].
      * rewrite E. cbn [bind]. destruct (IH ev1 full' H1) as (ev' & E2 & Hq). rewrite E2. cbn [bind]. cbn [limited]. rewrite Er. eexists.
        assert (El : limited rl (results_count ev1) full' = limited rl (results_count ev + is_match r) full') by (destruct full'; [reflexivity|rewrite Hn by discriminate; reflexivity]).
        rewrite El in *. split; [reflexivity|]. rewrite <- Hq. cbn [length]. lia.
    + assert (HI : iterate fuel (S k) ev = bind (next_within_deadline fuel None ev) (fun '(ev', r, _) => bind (iterate fuel k ev') (fun '(ev'', rs) => Ok (ev'', r :: rs)))) by (cbn [iterate]; rewrite Ep; reflexivity).
      rewrite HI. clear HI. destruct (call_spec fuel rl None ev full HF Hev) as [(ev1 & d' & E & H1 & Hn & Hd & _)|[(ev1 & d' & -> & E & H1 & Hn)|[(ev1 & d' & Hne & Er & E & H1 & Hn)|(ev1 & d' & r & full' & -> & Er & E & H1 & Hn)]]]; [congruence|congruence| | |].
      * exfalso. destruct Hev as (_ & _ & Ho). pose proof (owes_done _ _ Hstuck Ho). congruence.
      * rewrite E. cbn [bind]. destruct (IH ev1 [] H1) as (ev' & E2 & Hq). rewrite E2. cbn [bind]. eexists. destruct full; [congruence|]. cbn [limited]. rewrite Er.
        split; [cbn; destruct k; reflexivity|]. split; [intros _; apply Hq; cbn; lia|cbn; lia].
      * rewrite E. cbn [bind]. destruct (IH ev1 full' H1) as (ev' & E2 & Hq). rewrite E2. cbn [bind]. cbn [limited]. rewrite Er. eexists.
        assert (El : limited rl (results_count ev1) full' = limited rl (results_count ev + is_match r) full') by (destruct full'; [reflexivity|rewrite Hn by discriminate; reflexivity]).
        rewrite El in *. split; [reflexivity|]. rewrite <- Hq. cbn [length]. lia.
Qed.
End eval.
