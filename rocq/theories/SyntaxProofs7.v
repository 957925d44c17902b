(** Written patterns with alternatives, from the text to the lines printed. *)
From Coq Require Import String.
From Verif Require Export FlatText SyntaxProofs6.
From Verif Require Import Syntax.
Local Open Scope list_scope.

Lemma one_symbol_class p : one_symbol p = true -> one_class (tree p) = true /\ width (tree p) = 1.
Proof.
  induction p as [s| |n|b l|k b|bs IH|o ts IH|p l m IH] using pat_ind'; cbn [one_symbol]; intros H; try discriminate H; try (split; reflexivity).
  destruct bs as [|[|p [|p' b]] [|b' bs]]; try discriminate H. inversion IH as [|? ? IHb _]; subst. inversion IHb as [|? ? IHp _]; subst. destruct (IHp H) as [H1 H2].
  cbn [tree map branches_ast one_class width list_sum fold_right]. rewrite H1, H2. auto.
Qed.
Lemma class_branching a : one_class a = true -> branching a = true.
Proof.
  induction a as [cs|l IH|l IH|l IH|t mn mx IH|k b] using ast_ind'; cbn [one_class branching]; intros H; try discriminate H; [reflexivity|]. destruct l as [|t [|t' l]]; try discriminate H. inversion IH as [|? ? IHt _]; subst. cbn [forallb]. rewrite (IHt H). reflexivity.
Qed.
Lemma ends_tree p : ends_in_symbol p = true -> ends_in_class (tree p) = true.
Proof.
  induction p as [s| |n|b l|k b|bs IH|o ts IH|p l m IH] using pat_ind'; cbn [ends_in_symbol]; intros H; try discriminate H; try reflexivity.
  destruct bs as [|ps [|b' bs]]; try discriminate H. inversion IH as [|? ? IHp _]; subst. clear IH. cbn [tree map branches_ast ends_in_class].
  induction IHp as [|p ps Hp _ IHps]; [discriminate H|]. destruct ps as [|p2 ps]; [exact (Hp H)|]. exact (IHps H).
Qed.
Lemma once_tree p : branched p = true -> ends_once p = true -> ends_unrepeated (tree p) = true.
Proof.
  induction p as [s| |n|b l|k b|bs IH|o ts IH|p l m IH] using pat_ind'; cbn [ends_once]; intros Hb H; try discriminate H; try reflexivity.
  destruct bs as [|ps [|b' bs]]; [discriminate H| |reflexivity]. inversion IH as [|? ? IHp _]; subst. clear IH. cbn [branched] in Hb. cbn [tree map branches_ast ends_unrepeated].
  induction IHp as [|p ps Hp _ IHps]; [discriminate H|]. cbn [forallb] in Hb. apply andb_true_iff in Hb. destruct Hb as [B1 B2]. destruct ps as [|p2 ps]; [exact (Hp B1 H)|]. exact (IHps B2 H).
Qed.
Lemma smallest_least l : smallest l = least l.
Proof. induction l as [|x l IH]; [reflexivity|]. destruct l as [|y l]; [reflexivity|]. change (Nat.min x (smallest (y :: l)) = Nat.min x (least (y :: l))). rewrite IH. reflexivity. Qed.
Lemma least_mono l l' : Forall2 le l l' -> least l <= least l'.
Proof.
  induction 1 as [|x y l l' Hxy H IH]; [constructor|]. destruct H as [|x2 y2 l l' Hxy2 H]; [exact Hxy|].
  change (Nat.min x (least (x2 :: l)) <= Nat.min y (least (y2 :: l'))). lia.
Qed.
Lemma shortest_tree p : shortest_text p <= shortest (tree p).
Proof.
  induction p as [s| |n|b l|k b|bs IH|o ts IH|p l m IH] using pat_ind'; try (cbn; lia).
  - assert (HS : forall b, Forall (fun p => shortest_text p <= shortest (tree p)) b -> list_sum (map shortest_text b) <= shortest (Sequence (map tree b))).
    { induction 1 as [|p b Hp _ IHb]; [cbn; lia|]. cbn [map]. rewrite short_cons. change (list_sum (shortest_text p :: map shortest_text b)) with (shortest_text p + list_sum (map shortest_text b)). lia. }
    cbn [shortest_text tree]. rewrite smallest_least. destruct bs as [|ps [|b' bs]]; [cbn; lia| |].
    + inversion IH as [|? ? IHp _]; subst. exact (HS ps IHp).
    + change (branches_ast (map (fun b => map tree b) (ps :: b' :: bs))) with (Alternatives (map Sequence (map (fun b => map tree b) (ps :: b' :: bs)))).
      cbn [shortest]. apply least_mono. rewrite !map_map. clear - IH HS. induction IH as [|b l Hb _ IHl]; [constructor|]. cbn [map]. constructor; [exact (HS b Hb)|exact IHl].
  - cbn [shortest_text tree shortest]. apply Nat.mul_le_mono_l. exact IH.
Qed.
Lemma class_begins items : existsb (fun i => match i with Single _ => true | Range lo hi => N.leb lo hi end) items = true -> N.eqb (class_charset false (map item_of items)) EMPTY = false.
Proof.
  intros H. apply existsb_exists in H. destruct H as (i & Hi & H). apply N.eqb_neq. intros E.
  assert (C : exists s, covers items s).
  { destruct i as [c|lo hi]; [exists (char_of c), (Single c); split; [exact Hi|reflexivity]|]. exists (char_of lo), (Range lo hi). split; [exact Hi|]. exists lo. split; [|reflexivity]. apply N.leb_le in H. lia. }
  destruct C as (s & C). apply lists_covers in C. apply class_mem in C. rewrite E in C. unfold EMPTY in C. rewrite mem_0 in C. discriminate.
Qed.
Lemma openings_tree p : openings p <= beginnings (tree p).
Proof.
  induction p as [s| |n|b l|k b|bs IH|o ts IH|p l m IH] using pat_ind'; try (cbn; lia).
  - cbn [openings tree]. rewrite !begin_cons. change (beginnings (CharClass (charset_of WORD_END))) with 1. cbn [beginnings]. change (N.eqb LETTERS EMPTY) with false. cbn iota. destruct n as [|n]; [cbn; lia|lia].
  - cbn [openings tree beginnings]. destruct b; [lia|]. destruct (existsb _ l) eqn:El; [|lia]. rewrite (class_begins l El). lia.
  - assert (HS : forall b, Forall (fun p => openings p <= beginnings (tree p)) b ->
      (fix go (ps : list pat) : nat := match ps with [] => 0 | p :: ps' => openings p + match p with Repeated _ 0 _ => go ps' | _ => 0 end end) b <= beginnings (Sequence (map tree b))).
    { induction 1 as [|p b Hp _ IHb]; [cbn; lia|]. cbn [map]. rewrite begin_cons. apply Nat.add_le_mono; [exact Hp|]. destruct p as [| | | | | | |p' [|l'] m']; try lia. cbn [tree shortest Nat.mul Nat.eqb]. exact IHb. }
    cbn [openings tree]. destruct bs as [|ps [|b' bs]]; [cbn; lia| |].
    + inversion IH as [|? ? IHp _]; subst. cbn [map list_sum fold_right branches_ast]. rewrite Nat.add_0_r. exact (HS ps IHp).
    + change (branches_ast (map (fun b => map tree b) (ps :: b' :: bs))) with (Alternatives (map Sequence (map (fun b => map tree b) (ps :: b' :: bs)))).
      cbn [beginnings]. rewrite !map_map. clear - IH HS. induction IH as [|b l Hb _ IHl]; [cbn; lia|]. cbn [map].
      change (list_sum (?x :: ?l)) with (x + list_sum l). apply Nat.add_le_mono; [exact (HS b Hb)|exact IHl].
  - cbn [openings tree beginnings]. destruct m as [[|m]|]; [lia|exact IH|exact IH].
Qed.
Lemma branched_branching p : branched p = true -> branching (tree p) = true /\ width (tree p) <= size p.
Proof.
  induction p as [s| |n|b l|k b|bs IH|o ts IH|p l m IH] using pat_ind'; cbn [branched]; intros H; try discriminate H.
  - split; [reflexivity|]. cbn. lia.
  - split; [reflexivity|]. cbn. lia.
  - cbn [tree branching forallb one_class andb]. rewrite Nat.leb_refl. split; [reflexivity|]. cbn [width map list_sum fold_right size]. rewrite Nat.max_id. destruct n as [|[|n]]; [cbn; lia|cbn; lia|]. change (width (CharClass LETTERS)) with 1. rewrite Nat.mul_1_r. rewrite Nat.max_r by lia. cbn [width]. lia.
  - split; [reflexivity|]. cbn. lia.
  - destruct bs as [|ps [|b' bs]]; [discriminate H| |].
    2:{ apply andb_true_iff in H. destruct H as [H He]. cbn [tree]. change (branches_ast (map (fun b => map tree b) (ps :: b' :: bs))) with (Alternatives (map Sequence (map (fun b => map tree b) (ps :: b' :: bs)))). rewrite map_map.
      set (all := ps :: b' :: bs) in *. cbn [branching]. rewrite map_length.
      assert (G : Forall (fun b => branching (Sequence (map tree b)) = true /\ width (Sequence (map tree b)) <= list_sum (map size b)) all).
      { clear He. rewrite forallb_forall in H. rewrite Forall_forall in *. intros b Hb. specialize (IH b Hb). specialize (H b Hb). clear - IH H.
        cbn [branching width]. induction IH as [|p b Hp _ IHb]; [split; [reflexivity|cbn; lia]|]. cbn [forallb] in H. apply andb_true_iff in H. destruct H as [H1 H2]. destruct (Hp H1) as [F1 W1]. destruct (IHb H2) as [F2 W2].
        cbn [map forallb list_sum fold_right]. rewrite F1. split; [exact F2|]. unfold list_sum in W2. lia. }
      split.
      - change (2 <=? length all) with true. cbn [andb]. apply andb_true_iff. split.
        + apply forallb_forall. intros x Hx. apply in_map_iff in Hx. destruct Hx as (b & <- & Hb). rewrite Forall_forall in G. apply (G b Hb).
        + apply forallb_forall. intros x Hx. apply in_map_iff in Hx. destruct Hx as (b & <- & Hb). rewrite forallb_forall in He. exact (ends_tree (Group [b]) (He b Hb)).
      - rewrite alts_width. change (size (Group all)) with (S (list_sum (map (fun b => list_sum (map size b)) all))). apply le_n_S.
        clearbody all. clear - G. induction G as [|b all [_ Hb] _ IH]; [cbn; lia|]. cbn [map]. rewrite sum_cons.
        change (list_sum (?x :: ?l)) with (x + list_sum l). lia. }
    inversion IH as [|? ? IHp _]; subst. clear IH. cbn [tree map branches_ast branching width size list_sum fold_right]. rewrite Nat.add_0_r.
    assert (G : forallb branching (map tree ps) = true /\ list_sum (map width (map tree ps)) <= list_sum (map size ps)); [|unfold list_sum in *; split; [apply G|lia]].
    induction IHp as [|p ps Hp _ IHps]; [split; [reflexivity|cbn; lia]|]. cbn [forallb] in H. apply andb_true_iff in H. destruct H as [H1 H2]. destruct (Hp H1) as [F1 W1]. destruct (IHps H2) as [F2 W2].
    cbn [map forallb list_sum fold_right]. rewrite F1. split; [exact F2|]. unfold list_sum in W2. lia.
  - destruct o; [discriminate H| |].
    + cbn [tree op_rule operator_ast branching width size]. clear IH. rewrite map_map.
      induction ts as [|p ts IHts]; [split; [reflexivity|cbn; lia]|]. cbn [forallb] in H. apply andb_true_iff in H. destruct H as [H1 H2]. destruct (IHts H2) as [F2 W2]. destruct (one_symbol_class p H1) as [C1 C2].
      cbn [map forallb branching list_sum fold_right]. rewrite C1. split; [exact F2|]. cbn [width]. rewrite C2. unfold list_sum in W2. cbn [Nat.max Nat.mul]. lia.
    + cbn [tree op_rule operator_ast branching width size].
      assert (G : forallb branching (flat_map (fun c => [any_many; c]) (map tree ts)) = true /\ list_sum (map width (flat_map (fun c => [any_many; c]) (map tree ts))) <= list_sum (map (fun p => size p + 3) ts)).
      { induction IH as [|p ts Hp _ IHts]; [split; [reflexivity|cbn; lia]|]. cbn [forallb] in H. apply andb_true_iff in H. destruct H as [H1 H2]. destruct (Hp H1) as [F1 W1]. destruct (IHts H2) as [F2 W2].
        cbn [map flat_map app forallb]. change (branching any_many) with true. rewrite F1. cbn [andb]. split; [exact F2|]. cbn [map list_sum fold_right]. change (width any_many) with 3. unfold list_sum in W2. lia. }
      destruct G as [G1 G2]. split; [rewrite forallb_app, G1; reflexivity|]. rewrite map_app, list_sum_app. cbn [map list_sum fold_right]. change (width any_many) with 3. lia.
  - apply andb_true_iff in H. destruct H as [H2 H1]. cbn [tree branching]. rewrite H2. cbn [andb]. apply orb_true_iff in H1. destruct H1 as [H1|H1].
    + destruct (one_symbol_class p H1) as [C1 C2]. rewrite C1. split; [reflexivity|]. cbn [width size]. rewrite C2.
      assert (Hs : 1 <= size p) by (destruct (IH (ltac:(clear - H1; induction p as [s| |n|b l|k b|bs IHb|o ts IHo|p l m IHp] using pat_ind'; cbn [one_symbol] in H1; try discriminate H1; try reflexivity; destruct bs as [|[|p [|p' b]] [|b' bs]]; try discriminate H1; inversion IHb as [|? ? IHb1 _]; subst; inversion IHb1 as [|? ? IHp _]; subst; cbn [branched forallb]; rewrite (IHp H1); reflexivity))) as [_ W]; lia).
      assert (E : Nat.max l match m with Some m0 => m0 | None => l end <= Nat.max l match m with Some m0 => m0 | None => 0 end) by (destruct m; lia).
      set (a := Nat.max l match m with Some m0 => m0 | None => l end) in *. set (b := Nat.max l match m with Some m0 => m0 | None => 0 end) in *.
      assert (Hm : Nat.max 1 a <= Nat.max 1 b * size p) by (apply Nat.le_trans with (Nat.max 1 b * 1); [lia|apply Nat.mul_le_mono_l; exact Hs]).
      destruct l as [|[|l]], m as [[|[|m]]|]; lia.
    + apply andb_true_iff in H1. destruct H1 as [Hb H1]. destruct (IH Hb) as [F W]. rewrite F. destruct m as [m|]; [|discriminate H1]. split.
      * apply orb_true_iff. right. cbn [andb]. apply orb_true_iff in H1. apply orb_true_iff. destruct H1 as [H1|H1]; [auto|]. right. apply andb_true_iff in H1. destruct H1 as [H3 H4].
        rewrite (once_tree p Hb H3). cbn [andb]. apply orb_true_iff in H4. rewrite !Nat.leb_le in H4. apply orb_true_iff. rewrite !Nat.leb_le. pose proof (shortest_tree p). pose proof (openings_tree p). lia.
      * apply Nat.leb_le in H2. rewrite (group_width _ _ _ H2). change (size (Repeated p l (Some m))) with (2 + Nat.max 1 (Nat.max l m) * size p).
        assert (Hm : m * width (tree p) <= Nat.max 1 (Nat.max l m) * size p) by (apply Nat.mul_le_mono; lia).
        destruct (Nat.eqb_spec m 0) as [_|Hm0]; [lia|]. destruct ((l =? 1) && (m =? 1)); [|lia]. assert (1 * width (tree p) <= m * width (tree p)) by (apply Nat.mul_le_mono_r; lia). lia.
Qed.
Lemma branched_blockless p : branched p = true -> blockless p = true.
Proof.
  intros H. destruct (branched_branching p H) as [F _]. assert (B : forall a, branching a = true -> has_block a = false).
  { intros a. induction a as [cs|l IH|l IH|l IH|t mn mx IH|k b] using ast_ind'; cbn [branching has_block]; intros Hf; try discriminate Hf; [reflexivity| | |].
    - apply andb_true_iff in Hf. destruct Hf as [Hf _]. apply andb_true_iff in Hf. destruct Hf as [_ Hf].
      induction IH as [|a l Ha _ IHl]; [reflexivity|]. cbn [forallb existsb] in *. apply andb_true_iff in Hf. destruct Hf as [H1 H2]. rewrite (Ha H1). exact (IHl H2).
    - induction IH as [|a l Ha _ IHl]; [reflexivity|]. cbn [forallb existsb] in *. apply andb_true_iff in Hf. destruct Hf as [H1 H2]. rewrite (Ha H1). exact (IHl H2).
    - apply andb_true_iff in Hf. destruct Hf as [_ Hf]. apply IH. apply orb_true_iff in Hf. destruct Hf as [Hf|Hf]; [apply class_branching; exact Hf|]. apply andb_true_iff in Hf. apply Hf. }
  apply B in F. rewrite blocks_exact in F. destruct (blockless p); [reflexivity|discriminate F].
Qed.

Lemma symbol_class p : a_symbol p = true -> exists cs, tree p = CharClass cs /\ N.eqb cs EMPTY = false /\ size p = 1.
Proof.
  intros H. pose proof (openings_tree p) as Ho. destruct p as [s| |n|b l|k b|bs|o ts|p l m]; cbn [a_symbol] in H; try discriminate H; apply Nat.leb_le in H;
    cbn [tree beginnings] in Ho |- *; eexists; (split; [reflexivity|]); (split; [|reflexivity]); destruct (N.eqb _ EMPTY); try reflexivity; lia.
Qed.
Lemma symbols_class ts : forallb a_symbol ts = true -> forallb some_class (map tree ts) = true /\ list_sum (map width (map tree ts)) = length ts /\ length ts <= list_sum (map (fun p => size p + 3) ts).
Proof.
  induction ts as [|p ts IH]; intros H; [repeat split; constructor|]. cbn [forallb] in H. apply andb_true_iff in H. destruct H as [H1 H2]. destruct (IH H2) as (I1 & I2 & I3). destruct (symbol_class p H1) as (cs & E & Hc & Hs).
  cbn [map forallb length]. rewrite E. cbn [some_class]. rewrite Hc, I1. split; [reflexivity|]. change (list_sum (?x :: ?l)) with (x + list_sum l). change (width (CharClass cs)) with 1. rewrite I2, Hs. lia.
Qed.
Lemma strung_runs p : strung p = true -> runs (tree p) = true /\ width (tree p) <= size p.
Proof.
  assert (S : forall p, a_symbol p = true -> runs (tree p) = true /\ width (tree p) <= size p).
  { intros q H. destruct (symbol_class q H) as (cs & E & Hc & Hs). rewrite E, Hs. cbn [runs width]. rewrite Hc. split; [reflexivity|constructor]. }
  induction p as [s| |n|b l|k b|bs IH|o ts IH|p l m IH] using pat_ind'; cbn [strung]; intros H; try discriminate H; try (exact (S _ H)).
  - destruct bs as [|ps [|b' bs]]; try discriminate H. inversion IH as [|? ? IHp _]; subst. clear IH. cbn [tree map branches_ast runs width size list_sum fold_right]. rewrite Nat.add_0_r.
    assert (G : forallb runs (map tree ps) = true /\ list_sum (map width (map tree ps)) <= list_sum (map size ps)); [|unfold list_sum in *; split; [apply G|lia]].
    induction IHp as [|p ps Hp _ IHb]; [split; [reflexivity|constructor]|]. cbn [forallb] in H. apply andb_true_iff in H. destruct H as [H1 H2]. destruct (Hp H1) as [F1 W1]. destruct (IHb H2) as [F2 W2].
    cbn [map forallb]. rewrite F1, F2. split; [reflexivity|]. change (list_sum (?x :: ?l)) with (x + list_sum l). lia.
  - destruct o; try discriminate H. apply andb_true_iff in H. destruct H as [H1 H2]. destruct (symbols_class ts H2) as (F & W & L). cbn [tree op_rule operator_ast runs width size]. rewrite map_length, H1, F, W. split; [reflexivity|]. lia.
Qed.
Lemma runs_blocks a : runs a = true -> has_block a = false.
Proof.
  induction a as [cs|l IH|l IH|l IH|t mn mx IH|k b] using ast_ind'; cbn [runs has_block]; intros Hf; try discriminate Hf; [reflexivity| |].
  - induction IH as [|a l Ha _ IHl]; [reflexivity|]. cbn [forallb existsb] in *. apply andb_true_iff in Hf. destruct Hf as [H1 H2]. rewrite (Ha H1). exact (IHl H2).
  - apply andb_true_iff in Hf. destruct Hf as [_ Hf]. clear IH. induction l as [|a l IHl]; [reflexivity|]. cbn [forallb existsb] in *. apply andb_true_iff in Hf. destruct Hf as [H1 H2]. destruct a; try discriminate H1. exact (IHl H2).
Qed.
Lemma strung_blockless p : strung p = true -> blockless p = true.
Proof.
  intros H. destruct (strung_runs p H) as [F _]. apply runs_blocks in F. rewrite blocks_exact in F. destruct (blockless p); [reflexivity|discriminate F].
Qed.
Lemma blockless_group ps : blockless (Group [ps]) = true <-> Forall (fun p => blockless p = true) ps.
Proof.
  cbn [blockless forallb]. rewrite andb_true_r, forallb_forall, Forall_forall. reflexivity.
Qed.
Lemma firm_solid p : firm p = true -> Runs.solid (tree p) = true /\ width (tree p) <= size p /\ blockless p = true.
Proof.
  assert (S : forall p, a_symbol p = true -> Runs.solid (tree p) = true /\ width (tree p) <= size p /\ blockless p = true).
  { intros q H. pose proof (symbol_class q H) as (cs & E & Hc & Hs). rewrite E, Hs. cbn [Runs.solid width]. rewrite Hc. split; [reflexivity|]. split; [constructor|]. destruct q; try discriminate H; reflexivity. }
  induction p as [s| |n|b l|k b|bs IH|o ts IH|p l m IH] using pat_ind'; cbn [firm]; intros H; try discriminate H; try (exact (S _ H)). clear S.
  assert (HS : forall ps, Forall (fun p => firm p = true -> Runs.solid (tree p) = true /\ width (tree p) <= size p /\ blockless p = true) ps -> forallb firm ps = true ->
    forallb Runs.solid (map tree ps) = true /\ width (Sequence (map tree ps)) <= list_sum (map size ps) /\ forallb blockless ps = true).
  { clear. intros ps IHp H. induction IHp as [|p ps Hp _ IHb]; [split; [reflexivity|split; [constructor|reflexivity]]|]. cbn [forallb] in H. apply andb_true_iff in H. destruct H as [H1 H2]. destruct (Hp H1) as (F1 & W1 & B1). destruct (IHb H2) as (F2 & W2 & B2).
    cbn [map forallb]. rewrite F1, F2, B1, B2. split; [reflexivity|]. split; [|reflexivity]. rewrite sum_cons. change (list_sum (?x :: ?l)) with (x + list_sum l). lia. }
  destruct bs as [|ps [|b' bs]]; [discriminate H| |].
  - inversion IH as [|? ? IHp _]; subst. clear IH. apply andb_true_iff in H. destruct H as [H0 H]. destruct (HS ps IHp H) as (F & W & B).
    cbn [tree map branches_ast Runs.solid]. rewrite F. cbn [blockless forallb]. rewrite B. split; [destruct ps; [discriminate H0|reflexivity]|]. split; [|reflexivity].
    change (size (Group [ps])) with (1 + (list_sum (map size ps) + 0)). cbn [width] in *. lia.
  - apply andb_true_iff in H. destruct H as [H He]. cbn [tree]. change (branches_ast (map (fun b => map tree b) (ps :: b' :: bs))) with (Alternatives (map Sequence (map (fun b => map tree b) (ps :: b' :: bs)))). rewrite map_map.
    set (all := ps :: b' :: bs) in *.
    assert (G : Forall (fun b => forallb Runs.solid (map tree b) = true /\ width (Sequence (map tree b)) <= list_sum (map size b) /\ forallb blockless b = true) all).
    { rewrite forallb_forall in H. rewrite Forall_forall in *. intros b Hb. apply HS; [exact (IH b Hb)|exact (H b Hb)]. }
    split; [|split].
    + cbn [Runs.solid]. rewrite map_length. change (2 <=? length all) with true. cbn [andb]. apply andb_true_iff. rewrite forallb_forall in He. split; apply forallb_forall; intros x Hx; apply in_map_iff in Hx; destruct Hx as (b & <- & Hb).
      * rewrite Forall_forall in G. destruct (G b Hb) as [Gb _]. cbn [Runs.solid]. rewrite Gb. specialize (He b Hb). destruct b; [discriminate He|reflexivity].
      * exact (ends_tree (Group [b]) (He b Hb)).
    + rewrite alts_width. change (size (Group all)) with (S (list_sum (map (fun b => list_sum (map size b)) all))). apply le_n_S.
      clearbody all. clear - G. induction G as [|b all (_ & Hb & _) _ IH]; [constructor|]. cbn [map]. rewrite sum_cons.
      change (list_sum (?x :: ?l)) with (x + list_sum l). lia.
    + cbn [blockless]. apply forallb_forall. intros b Hb. rewrite Forall_forall in G. apply (G b Hb).
Qed.
Lemma firms_solid ps : forallb firm ps = true -> forallb Runs.solid (map tree ps) = true /\ list_sum (map width (map tree ps)) <= list_sum (map size ps) /\ Forall (fun p => blockless p = true) ps.
Proof.
  induction ps as [|p ps IH]; intros H; [split; [reflexivity|split; constructor]|]. cbn [forallb] in H. apply andb_true_iff in H. destruct H as [H1 H2]. destruct (IH H2) as (F & W & B). destruct (firm_solid p H1) as (F1 & W1 & B1).
  cbn [map forallb]. rewrite F1, F. split; [reflexivity|]. split; [|constructor; assumption]. change (list_sum (width (tree p) :: map width (map tree ps))) with (width (tree p) + list_sum (map width (map tree ps))). change (list_sum (size p :: map size ps)) with (size p + list_sum (map size ps)). lia.
Qed.
Lemma ringed_ring ps : ringed ps = true -> exists b r l e, map tree ps = b ++ Repetition r l None :: e /\ forallb Runs.solid b = true /\ Runs.solid r = true /\ 2 <= shortest r /\ forallb Runs.solid e = true /\ list_sum (map width (map tree ps)) <= list_sum (map size ps) /\ Forall (fun p => blockless p = true) ps.
Proof.
  induction ps as [|p ps IH]; [discriminate|]. intros H.
  assert (C : (exists r l, p = Repeated r l None /\ firm r = true /\ 2 <= shortest_text r /\ forallb firm ps = true) \/ (firm p = true /\ ringed ps = true)).
  { cbn [ringed] in H. destruct p as [s| |n|b l|k b|bs|o ts|r l m]; try (right; apply andb_true_iff; exact H). destruct m as [m|]; [right; apply andb_true_iff; exact H|].
    left. apply andb_true_iff in H. destruct H as [H H2]. apply andb_true_iff in H. destruct H as [H0 H1]. apply Nat.leb_le in H1. exists r, l. auto. }
  destruct C as [(r & l & -> & H0 & H1 & H2)|[H0 H1]].
  - destruct (firms_solid ps H2) as (F & W & B). destruct (firm_solid r H0) as (F1 & W1 & B1). exists [], (tree r), l, (map tree ps). cbn [map tree app forallb]. split; [reflexivity|]. split; [reflexivity|]. split; [exact F1|].
    split; [pose proof (shortest_tree r); lia|]. split; [exact F|]. split; [|constructor; assumption].
    change (list_sum (width (Repetition (tree r) l None) :: map width (map tree ps))) with (width (Repetition (tree r) l None) + list_sum (map width (map tree ps))). rewrite ring_width.
    change (list_sum (size (Repeated r l None) :: map size ps)) with (2 + Nat.max 1 (Nat.max l 0) * size r + list_sum (map size ps)). rewrite Nat.max_0_r.
    assert (Nat.max 1 l * width (tree r) <= Nat.max 1 l * size r) by (apply Nat.mul_le_mono_l; exact W1). lia.
  - destruct (IH H1) as (b & r & l & e & E & Hb & Hr & Hs & He & W & B). destruct (firm_solid p H0) as (F1 & W1 & B1). exists (tree p :: b), r, l, e. cbn [map app forallb]. rewrite E, F1. split; [reflexivity|]. split; [exact Hb|]. split; [exact Hr|]. split; [exact Hs|]. split; [exact He|].
    split; [|constructor; assumption]. rewrite <- E. change (list_sum (width (tree p) :: map width (map tree ps))) with (width (tree p) + list_sum (map width (map tree ps))). change (list_sum (size p :: map size ps)) with (size p + list_sum (map size ps)). lia.
Qed.
Lemma one_kind ps : of_one_kind ps = true ->
  sewn (Sequence (map tree ps)) /\ list_sum (map width (map tree ps)) <= list_sum (map size ps) /\ Forall (fun p => blockless p = true) ps.
Proof.
  assert (W : forall f, (forall p, f p = true -> width (tree p) <= size p) -> forallb f ps = true -> list_sum (map width (map tree ps)) <= list_sum (map size ps)).
  { intros f Hf H. induction ps as [|p l IH]; [constructor|]. cbn [forallb] in H. apply andb_true_iff in H. destruct H as [H1 H2]. cbn [map]. change (list_sum (?x :: ?l)) with (x + list_sum l).
    specialize (IH H2). specialize (Hf p H1). change (list_sum (?x :: ?l)) with (x + list_sum l). lia. }
  unfold of_one_kind. intros H. apply orb_true_iff in H. destruct H as [H|H].
  2:{ destruct (ringed_ring _ H) as (b & r & l & e & E & Hb & Hr & Hs & He & HW & HB). split; [rewrite E; apply sewn_ring; assumption|]. split; assumption. }
  apply orb_true_iff in H. destruct H as [H|H].
  - destruct (branched_branching _ H) as [F _]. split; [apply sewn_branching; exact F|]. split; [|apply blockless_group; exact (branched_blockless _ H)].
    apply (W branched); [intros p Hp; apply branched_branching; exact Hp|exact H].
  - destruct (strung_runs _ H) as [F _]. split; [apply sewn_runs; exact F|]. split; [|apply blockless_group; exact (strung_blockless _ H)].
    apply (W strung); [intros p Hp; apply strung_runs; exact Hp|exact H].
Qed.
Lemma stitched_sewn ps : forall open, stitched open ps = true ->
  sewn (Sequence (map tree (open ++ ps))) /\ list_sum (map width (map tree (open ++ ps))) <= list_sum (map size (open ++ ps)) /\ Forall (fun p => blockless p = true) (open ++ ps).
Proof.
  induction ps as [|p ps IH]; intros open H; cbn [stitched] in H; [rewrite app_nil_r; apply one_kind; exact H|].
  destruct (a_symbol p) eqn:A.
  - apply andb_true_iff in H. destruct H as [H1 H2]. destruct (one_kind _ H1) as (F1 & W1 & B1). destruct (IH _ H2) as (F2 & W2 & B2).
    destruct (symbol_class p A) as (cs & Et & Hc & Hs). cbn [app] in F2, W2, B2. rewrite !map_app in *. cbn [map] in *. rewrite Et in *. split; [|split].
    + apply sewn_join; [apply N.eqb_neq; exact Hc|exact F1|exact F2].
    + assert (LS : forall x l, list_sum (x :: l) = x + list_sum l) by reflexivity. rewrite ?map_app in *. cbn [map] in *. rewrite ?list_sum_app, ?LS in *. rewrite Hs in *. change (width (CharClass cs)) with 1 in *. change (list_sum []) with 0 in *. lia.
    + apply Forall_app in B1. apply Forall_app. split; [apply B1|exact B2].
  - specialize (IH _ H). rewrite <- app_assoc in IH. exact IH.
Qed.
Lemma plain_simple bs : plain_pattern bs = true -> sewn (tree (Group bs)) /\ small (tree (Group bs)) /\ blockless (Group bs) = true.
Proof.
  unfold plain_pattern. rewrite andb_true_iff. intros [H1 H2]. apply Nat.ltb_lt in H2.
  destruct bs as [|ps [|b bs]].
  - discriminate H1.
  - destruct (stitched_sewn _ _ H1) as (F & W & B). cbn [app] in F, W, B. split; [exact F|]. split; [|apply blockless_group; exact B].
    unfold small. cbn [tree map branches_ast width]. change (size (Group [ps])) with (1 + list_sum [list_sum (map size ps)]) in H2. cbn [list_sum fold_right] in H2. unfold list_sum in *. lia.
  - destruct (branched_branching _ H1) as [F W]. split; [apply sewn_branching; exact F|]. split; [unfold small; lia|exact (branched_blockless _ H1)].
Qed.

(** ** What fits *)
Lemma options_agree bs rs o o' w : options_asked bs rs o -> options_asked bs rs o' -> significant o w = significant o' w /\ requested_fuzz o = requested_fuzz o'.
Proof.
  intros (A1 & A2 & A3) (B1 & B2 & B3). split; [|unfold requested_fuzz; rewrite A3, B3; reflexivity].
  assert (T : forall x y : option bool, (x = Some true <-> y = Some true) -> (match x with Some true => true | _ => false end) = (match y with Some true => true | _ => false end)).
  { intros [[|]|] [[|]|] H; try reflexivity; exfalso; destruct H as [H H']; try (discriminate (H eq_refl)); try (discriminate (H' eq_refl)). }
  unfold significant. apply filter_ext. intros c. rewrite (T _ (explicit_word_boundaries o') (iff_trans A1 (iff_sym B1))), (T _ (explicit_punctuation o') (iff_trans A2 (iff_sym B2))). reflexivity.
Qed.
Lemma fits_text p e t : options_asked (fst p) (snd p) (options e) -> (forall w, matches (root e) w <-> means (Group (fst p)) w) -> (text_fits e t <-> fits p t).
Proof.
  intros Ho Hm. unfold text_fits, fits. split.
  - intros (u & k & Hk & Hf & x & n & -> & Hx). exists (options e). split; [exact Ho|]. exists (x ++ repeat WORD_END n), k. split; [exact Hk|]. split; [exact Hf|]. exists x, n. split; [reflexivity|]. apply Hm. exact Hx.
  - intros (o & Ho' & u & k & Hk & Hf & x & n & -> & Hx). destruct (options_agree _ _ o (options e) t Ho' Ho) as [E1 E2]. rewrite E1 in Hf. rewrite E2 in Hk. exists (x ++ repeat WORD_END n), k. split; [exact Hk|]. split; [exact Hf|]. exists x, n. split; [reflexivity|]. apply Hm. exact Hx.
Qed.
Lemma single_prints ovf u query ws q P : parse_query u query = Ok (Parsed q) -> wordlist (q_options q) = None ->
  q_expressions q <> [] -> all_simple (q_expressions q) -> (forall t, Forall (fun e => text_fits e t) (q_expressions q) <-> P t) ->
  forall lines, prints ovf u query ws lines <-> exists sel, lines = map w_text (filter sel ws) /\ forall w, sel w = true <-> P (w_chars w).
Proof.
  intros Hq Ho Hn Ha HP lines.
  destruct (simple_single ovf (q_expressions q) ws 1 Hn Ha (le_n 1)) as (exs & E & rs & R1 & R2 & sel & S1 & S2).
  assert (S3 : forall w, sel w = true <-> P (w_chars w)) by (intros w; rewrite S2; unfold phrase_fits; rewrite letters_of_word; apply HP). clear S2.
  assert (Hrep : forall ls, Forall2 AppsSpec.spaced (reported rs) ls <-> ls = map w_text (filter sel ws)).
  { intros ls. rewrite S1. clear S1. revert ls. induction (filter sel ws) as [|w l IH]; intros ls; cbn [map].
    - split; [inversion 1; reflexivity|intros ->; constructor].
    - split.
      + inversion 1 as [|? x ? ls' Hx Hr]; subst. inversion Hx as [|? ? ? Hs]; subst; [|inversion Hs]. f_equal. apply IH. exact Hr.
      + intros ->. constructor; [constructor|]. apply IH. reflexivity. }
  unfold prints. rewrite C45_cli_prints. split.
  - intros (q' & exs' & rs' & Hq' & E' & R' & F). assert (q' = q) by congruence. subst q'. assert (exs' = exs) by congruence. subst exs'.
    rewrite Ho in R'. cbn [given_or] in R'. rewrite (R2 _ R') in F. apply Hrep in F. exists sel. auto.
  - intros (sel' & -> & Hsel'). exists q, exs, rs. split; [exact Hq|]. split; [exact E|]. rewrite Ho. cbn [given_or].
    split; [exact R1|]. apply Hrep. f_equal. apply filter_ext. intros w. apply eq_true_iff_eq. rewrite Hsel', S3. reflexivity.
Qed.
Lemma written_prints ovf u ls t ws : writes_query ls t -> patterns ls <> [] -> Forall (fun p => plain_pattern (fst p) = true) (patterns ls) ->
  forall lines, prints ovf u t ws lines <-> exists sel, lines = map w_text (filter sel ws) /\ forall w, sel w = true <-> Forall (fun p => fits p (w_chars w)) (patterns ls).
Proof.
  intros H Hne Hp. pose proof (patterns_written ls t H) as Hb.
  pose proof (query_parses u ls t H) as Eq. rewrite expand_nones in Eq.
  2:{ unfold written_exprs. apply Forall_map. eapply Forall_impl; [|exact Hp]. intros p Hpp. destruct (plain_simple _ Hpp) as (_ & _ & Hbl). cbn [written_expr root]. rewrite blocks_exact, Hbl. reflexivity. }
  cbn [bind] in Eq. refine (single_prints ovf u t ws _ (fun x => Forall (fun p => fits p x) (patterns ls)) Eq eq_refl _ _ _); cbn [q_expressions].
  - unfold written_exprs. destruct (patterns ls); [congruence|discriminate].
  - unfold all_simple, written_exprs. apply Forall_map. eapply Forall_impl; [|exact Hp]. intros p Hpp. destruct (plain_simple _ Hpp) as (F & W & _). split; [exact F|exact W].
  - intros x. unfold written_exprs. rewrite Forall_map. rewrite !Forall_forall. rewrite Forall_forall in Hb.
    assert (G : forall p, In p (patterns ls) -> (text_fits (written_expr (fst p) (snd p)) x <-> fits p x)).
    { intros p Hin. destruct (Hb p Hin) as (y & Hy). apply fits_text; [exact (written_options _ _ y Hy)|]. intros w. rewrite <- denotes_matches. cbn [written_expr root]. exact (written_denotes _ y w Hy). }
    split; intros Hx p Hin; apply (G p Hin); apply Hx; exact Hin.
Qed.
