(** Proofs about the generator of wordlists: which spelling is chosen. *)
From Coq Require Import String ZArith Permutation Sorting.
From Verif Require Export ListgenProofs4.
Local Open Scope list_scope.

Lemma find_app' {A} (f : A -> bool) a b : find f (a ++ b) = match find f a with Some x => Some x | None => find f b end.
Proof. induction a as [|x a IH]; cbn [app find]; [reflexivity|]. destruct (f x); [reflexivity|exact IH]. Qed.
Lemma find_in {A} (f : A -> bool) a k : In k a -> f k = true -> find f a <> None.
Proof. intros Hi Hk E. pose proof (find_none f a E k Hi). congruence. Qed.
Lemma find_set {A} f (d : dict A) k v : find f (map fst (set d k v)) = find f (map fst d ++ [k]).
Proof.
  destruct (set_keys d k v) as [[-> Hi]|[-> _]]; [|reflexivity]. rewrite find_app'. destruct (find f (map fst d)) as [x|] eqn:E; [reflexivity|]. cbn [find].
  destruct (f k) eqn:Ek; [|reflexivity]. destruct (find_in f _ _ Hi Ek E).
Qed.
Lemma find_fold f l : forall d, find f (map fst (fold_left add_to l d)) = find f (map fst d ++ map fst l).
Proof.
  induction l as [|e l IH]; intros d; cbn [fold_left map]; [rewrite app_nil_r; reflexivity|]. rewrite IH. unfold add_to. rewrite !find_app', find_set, find_app'. cbn [find].
  destruct (find f (map fst d)); [reflexivity|]. destruct (f (fst e)); reflexivity.
Qed.
Lemma find_words f ws : find f (map fst (count_words ws)) = find f ws.
Proof. unfold count_words. rewrite find_fold. cbn [map app]. rewrite map_map. cbn [fst]. rewrite map_id. reflexivity. Qed.
Lemma find_merge f (g : article -> list text) files :
  find f (map fst (merge_counts (map (fun file => count_words (flat_map g file)) files))) = find f (flat_map g (concat files)).
Proof.
  unfold merge_counts. rewrite find_fold. cbn [map app]. induction files as [|file files IH]; [reflexivity|].
  cbn [map concat]. rewrite map_app, flat_map_app, !find_app', find_words, IH. reflexivity.
Qed.
Lemma get0_set d k v x : get0 (set d k v) x = if text_eqb k x then v else get0 d x.
Proof. unfold get0. rewrite get_set. destruct (text_eqb k x); reflexivity. Qed.
Lemma get0_fold x l : forall d, get0 (fold_left add_to l d) x = (get0 d x + summed (text_eqb x) l)%Z.
Proof.
  induction l as [|[k n] l IH]; intros d; cbn [fold_left]; [change (summed _ []) with 0%Z; lia|]. rewrite IH, summed_cons. unfold add_to. cbn [fst snd]. rewrite get0_set.
  destruct (teq_spec k x) as [->|Hne]; [rewrite teq_refl; lia|]. rewrite teq_no by congruence. lia.
Qed.
Lemma get0_words x ws : get0 (count_words ws) x = times x ws.
Proof.
  unfold count_words. rewrite get0_fold. change (get0 [] x) with 0%Z. unfold times. cbn [Z.add]. induction ws as [|w ws IH]; [reflexivity|].
  cbn [map filter]. rewrite summed_cons, IH. destruct (text_eqb x w); cbn [length]; lia.
Qed.
Lemma get0_merge x (g : article -> list text) files :
  get0 (merge_counts (map (fun file => count_words (flat_map g file)) files)) x = times x (flat_map g (concat files)).
Proof.
  unfold merge_counts. rewrite get0_fold. change (get0 [] x) with 0%Z. cbn [Z.add].
  induction files as [|file files IH]; [reflexivity|]. cbn [map concat]. rewrite summed_app, flat_map_app, IH, summed_words. unfold times. rewrite filter_app, app_length. lia.
Qed.
Lemma fold_nodup l : forall d, NoDup (map fst d) -> NoDup (map fst (fold_left add_to l d)).
Proof. induction l as [|e l IH]; intros d H; [exact H|]. cbn [fold_left]. apply IH. apply set_nodup. exact H. Qed.
Lemma find_entry {A} f (c : dict A) : find f (map fst c) = match find (fun e => f (fst e)) c with Some e => Some (fst e) | None => None end.
Proof. induction c as [|e c IH]; [reflexivity|]. cbn [map find]. destruct (f (fst e)); [reflexivity|exact IH]. Qed.
Lemma find_first {A} (f : A -> bool) l w : find f l = Some w -> exists a b, l = a ++ w :: b /\ f w = true /\ Forall (fun x => f x = false) a.
Proof.
  induction l as [|x l IH]; cbn [find]; [discriminate|]. destruct (f x) eqn:E.
  - intros H. injection H as ->. exists [], l. repeat split; [exact E|constructor].
  - intros H. destruct (IH H) as (a & b & -> & H1 & H2). exists (x :: a), b. repeat split; [exact H1|constructor; assumption].
Qed.

(** The forms after one pass over the counts [c] *)
Lemma pass_forms p title body c : forall F new k,
  get (fst (fold_left (choose_form p title body) c (F, new))) k =
  match get F k with
  | Some f => Some f
  | None => match find (fun e => has_form p k (fst e)) c with
            | Some (w, n) => Some (if (n <=? 100 * (get0 title k + get0 body k))%Z then k else w)
            | None => None
            end
  end.
Proof.
  induction c as [|[w n] c IH]; intros F new k; cbn [fold_left].
  - cbn [find fst]. destruct (get F k); reflexivity.
  - unfold choose_form at 2. cbv zeta. set (kc := canonicalize p w).
    set (F1 := match get F kc with Some _ => F | None => if (n <=? 100 * (get0 title kc + get0 body kc))%Z then set F kc kc else set F kc w end).
    rewrite IH. unfold F1. cbn [find fst]. change (has_form p k w) with (text_eqb kc k). destruct (teq_spec kc k) as [->|Hne].
    + destruct (get F k) as [f|] eqn:E; [rewrite E; reflexivity|]. destruct (_ <=? _)%Z; rewrite get_set, teq_refl; reflexivity.
    + destruct (get F kc) as [f|] eqn:E; [reflexivity|]. destruct (_ <=? _)%Z; rewrite get_set, teq_no by exact Hne; reflexivity.
Qed.

Section forms.
  Variable p : python.
  Hypothesis Hs : sane p.
  Hypothesis Hf : folded p.
  Lemma merged_entry f (g : article -> list text) files w n : let T := merge_counts (map (fun file => count_words (flat_map g file)) files) in
    find (fun e => f (fst e)) T = Some (w, n) -> find f (flat_map g (concat files)) = Some w /\ n = times w (flat_map g (concat files)).
  Proof.
    cbv zeta. intros H. split.
    - rewrite <- find_merge, find_entry. unfold dict in *. rewrite H. reflexivity.
    - rewrite <- get0_merge. apply find_some in H. destruct H as [Hi _]. apply get_in in Hi; [|apply fold_nodup; constructor]. unfold get0. unfold dict in *. rewrite Hi. reflexivity.
  Qed.
  Lemma merged_none f (g : article -> list text) files : let T := merge_counts (map (fun file => count_words (flat_map g file)) files) in
    find (fun e => f (fst e)) T = None -> Forall (fun x => f x = false) (flat_map g (concat files)).
  Proof.
    cbv zeta. intros H. apply Forall_forall. apply find_none. rewrite <- find_merge, find_entry. unfold dict in *. rewrite H. reflexivity.
  Qed.
  Lemma form_yes k w : has_form p k w = true -> canonicalize p w = k.
  Proof. apply teq. Qed.
  Lemma form_no k w : has_form p k w = false -> canonicalize p w <> k.
  Proof. intros H E. unfold has_form in H. rewrite E, teq_refl in H. discriminate. Qed.
  Lemma first_find k ws w : find (has_form p k) ws = Some w -> first_of p k ws w.
  Proof.
    intros H. apply find_first in H. destruct H as (a & b & E & H1 & H2). exists a, b. split; [exact E|]. split; [apply form_yes; exact H1|].
    eapply Forall_impl; [|exact H2]. intros x Hx. apply form_no. exact Hx.
  Qed.
  Lemma spelling_lemma files title body : word_frequency p (map (extract p) files) = (title, body) ->
    forall k f, proper p k -> In f (map fst title ++ map fst body) -> canonicalize p f = k ->
    spelt p k (flat_map (title_words p) (concat files)) (flat_map (body_words p) (concat files)) f.
  Proof.
    unfold word_frequency. cbv zeta. rewrite !map_map. unfold extract. cbn [fst snd].
    set (T := merge_counts (map (fun x => count_words (flat_map (title_words p) x)) files)).
    set (B := merge_counts (map (fun x => count_words (flat_map (body_words p) x)) files)).
    destruct (pass p Hs Hf T B T [] []) as (F1 & t1 & E1 & A1 & A2 & A3 & _); [intros x y H; discriminate|intros x []|]. unfold dict in E1 |- *. rewrite E1.
    destruct (pass p Hs Hf t1 B B F1 []) as (F2 & b1 & E2 & B1 & B2 & B3 & _); [exact A1|intros x []|]. unfold dict in E2 |- *. rewrite E2. intros E. injection E as <- <-.
    pose proof (pass_forms p T B T [] []) as G1. unfold dict in G1. rewrite E1 in G1. cbn [fst get] in G1.
    pose proof (pass_forms p t1 B B F1 []) as G2. unfold dict in G2. rewrite E2 in G2. cbn [fst] in G2.
    intros k f Hk Hi Hc.
    assert (Hu : get F2 k = Some f).
    { assert (Hg : exists kc, get F2 kc = Some f) by (apply in_app_iff in Hi; destruct Hi as [Hw|Hw]; [destruct (A3 f Hw) as [y Hy]; exists y; apply B2; exact Hy|apply B3; exact Hw]).
      destruct Hg as [kc Hg]. pose proof (formed_has p Hs Hf F2 kc f k B1 Hg Hk) as Hh. unfold has_form in Hh. rewrite Hc, teq_refl in Hh. symmetry in Hh. apply teq in Hh. congruence. }
    unfold dict in Hu. rewrite G2, G1 in Hu. clear G2.
    destruct (find (fun e => has_form p k (fst e)) T) as [[w n]|] eqn:Ef.
    - injection Hu as Hu. subst f. apply merged_entry in Ef. destruct Ef as [Ef ->]. left. exists w. split; [apply first_find; exact Ef|]. unfold T, B. rewrite !get0_merge. reflexivity.
    - assert (Ht : get0 t1 k = 0%Z).
      { unfold get0. destruct (get t1 k) as [v|] eqn:Eg; [|reflexivity]. exfalso.
        assert (Hin : In k (map fst t1)). { destruct (get_none t1 k) as [_ Hn]. destruct (in_dec (list_eq_dec N.eq_dec) k (map fst t1)) as [Hin|Hin]; [exact Hin|]. specialize (Hn Hin). congruence. }
        destruct (A3 k Hin) as [kc Hkc]. pose proof (formed_has p Hs Hf F1 kc k k A1 Hkc Hk) as Hh. destruct Hk as [_ Hk]. unfold has_form in Hh. rewrite Hk, teq_refl in Hh. symmetry in Hh. apply teq in Hh. subst kc.
        unfold dict in Hkc. rewrite G1, Ef in Hkc. discriminate. }
      rewrite Ht in Hu. cbn [Z.add] in Hu. right. split; [eapply Forall_impl; [|apply (merged_none _ _ _ Ef)]; intros x Hx; apply form_no; exact Hx|].
      destruct (find (fun e => has_form p k (fst e)) B) as [[w n]|] eqn:Eb; [|discriminate]. injection Hu as Hu. subst f. apply merged_entry in Eb. destruct Eb as [Eb ->].
      exists w. split; [apply first_find; exact Eb|]. unfold B. rewrite get0_merge. reflexivity.
  Qed.
End forms.
Lemma kept_words_iff p ts ws : kept_words p ts ws <-> ws = map (strip_word p) (flat_map (fun t => split_words p t []) ts).
Proof.
  assert (H : forall wss, Forall2 (cut_into p) ts wss -> concat wss = flat_map (fun t => split_words p t []) ts).
  { intros wss H. induction H as [|t vs ts wss H1 H2 IH]; [reflexivity|]. cbn [concat flat_map]. rewrite IH. f_equal. symmetry. apply split_cut. exact H1. }
  split.
  - intros (wss & Hw & ->). rewrite <- (H wss Hw). reflexivity.
  - intros ->. exists (map (fun t => split_words p t []) ts). split; [|rewrite flat_map_concat_map; reflexivity].
    clear H. induction ts as [|t ts IH]; [constructor|]. constructor; [apply split_cut; reflexivity|exact IH].
Qed.
Lemma spelling_chosen p : sane p -> folded p -> forall files title body tws bws, word_frequency p (map (extract p) files) = (title, body) ->
  kept_words p (titles files) tws -> kept_words p (bodies files) bws ->
  forall k f, k <> [] /\ canonicalize p k = k -> In f (map fst title ++ map fst body) -> canonicalize p f = k -> spelt p k tws bws f.
Proof.
  intros Hs Hf files title body tws bws E Ht Hb k f Hk Hi Hc. apply kept_words_iff in Ht. apply kept_words_iff in Hb. subst tws bws. rewrite <- titles_words, <- bodies_words.
  apply (spelling_lemma p Hs Hf files title body E k f Hk Hi Hc).
Qed.

(** ** Entries of the dictionary *)
Definition named (p : python) (k : text) (ms : list (Z * text)) : list (Z * text) :=
  filter (fun m => match snd m with [] => false | w => text_eqb (canonicalize p w) k end) (map (fun m => (fst m, strip_word p (snd m))) ms).
Definition put (p : python) (wl : wordlist) (m : Z * text) : wordlist := enter p wl (snd m) (fst m).
Lemma entry_mentions p wl e : enter_entry p wl e = fold_left (put p) (mentions p e) wl.
Proof.
  unfold enter_entry, mentions. cbn [fold_left fst snd]. unfold put at 2. cbn [fst snd]. generalize (enter p wl (fst e) 1000). induction (snd e) as [|f l IH]; intros d; [reflexivity|].
  cbn [fold_left filter]. destruct (negb _ && _); cbn [map fold_left]; apply IH.
Qed.
Lemma entries_mentions p l : forall wl, fold_left (enter_entry p) l wl = fold_left (put p) (flat_map (mentions p) l) wl.
Proof. induction l as [|e l IH]; intros wl; [reflexivity|]. cbn [fold_left flat_map]. rewrite fold_left_app, IH, entry_mentions. reflexivity. Qed.
Definition best (l : list (Z * text)) : option (Z * text) :=
  match l with [] => None | m :: ms => Some (fold_left Z.max (map fst ms) (fst m), snd m) end.
Lemma put_get p wl m k : get (put p wl m) k =
  match named p k [m] with
  | [] => get wl k
  | n :: _ => match get wl k with Some (s, w) => Some (Z.max s (fst m), w) | None => Some n end
  end.
Proof.
  unfold put, enter, named. cbn [map filter fst snd]. destruct (strip_word p (snd m)) as [|c w]; [reflexivity|]. cbv zeta. set (x := c :: w). change (match x with [] => false | w => text_eqb (canonicalize p w) k end) with (text_eqb (canonicalize p x) k).
  destruct (teq_spec (canonicalize p x) k) as [<-|Hne].
  - destruct (get wl (canonicalize p x)) as [[s y]|] eqn:E; rewrite get_set, teq_refl; reflexivity.
  - destruct (get wl (canonicalize p x)) as [[s y]|] eqn:E; rewrite get_set, teq_no by exact Hne; reflexivity.
Qed.
Lemma best_snoc l n : best (l ++ [n]) = match best l with Some (s, w) => Some (Z.max s (fst n), w) | None => Some n end.
Proof. destruct l as [|m l]; cbn [app best]; [destruct n; reflexivity|]. rewrite map_app, fold_left_app. reflexivity. Qed.
Lemma put_names p k ms : get (fold_left (put p) ms []) k = best (named p k ms).
Proof.
  induction ms as [|m ms IH] using rev_ind; [reflexivity|]. rewrite fold_left_app. cbn [fold_left]. rewrite put_get, IH.
  assert (E : named p k (ms ++ [m]) = named p k ms ++ named p k [m]) by (unfold named; rewrite map_app, filter_app; reflexivity). rewrite E.
  assert (H1 : named p k [m] = [] \/ exists n, named p k [m] = [n] /\ fst n = fst m).
  { unfold named. cbn [map filter]. destruct (match snd _ with [] => false | _ => _ end); [right; eexists; split; reflexivity|left; reflexivity]. }
  destruct H1 as [->|(n & -> & En)]; [rewrite app_nil_r; reflexivity|]. rewrite best_snoc, En. reflexivity.
Qed.
Lemma put_nodup p ms : forall wl, NoDup (map fst wl) -> NoDup (map fst (fold_left (put p) ms wl)).
Proof.
  induction ms as [|m ms IH]; intros wl H; [exact H|]. cbn [fold_left]. apply IH. unfold put, enter. destruct (strip_word p (snd m)) as [|c w]; [exact H|]. cbv zeta.
  destruct (get wl _) as [[s y]|]; apply set_nodup; exact H.
Qed.
Lemma max_greatest l : forall a, In (fold_left Z.max l a) (a :: l) /\ Forall (fun s => (s <= fold_left Z.max l a)%Z) (a :: l).
Proof.
  induction l as [|x l IH]; intros a; cbn [fold_left]; [split; [left; reflexivity|constructor; [lia|constructor]]|].
  destruct (IH (Z.max a x)) as [H1 H2]. inversion H2 as [|? ? H3 H4]; subst. split.
  - destruct H1 as [H1|H1]; [|right; right; exact H1]. destruct (Z.max_spec a x) as [[_ E]|[_ E]]; rewrite E in *; [right; left|left]; exact H1.
  - constructor; [lia|]. constructor; [lia|exact H4].
Qed.
Lemma greatest_unique l a b : In a l -> Forall (fun s => (s <= a)%Z) l -> In b l -> Forall (fun s => (s <= b)%Z) l -> a = b.
Proof. rewrite !Forall_forall. intros H1 H2 H3 H4. specialize (H2 _ H3). specialize (H4 _ H1). lia. Qed.
Lemma best_entered p l k line : best (names p l k) = Some line <-> entered p l k line.
Proof.
  unfold entered. destruct (names p l k) as [|m ms] eqn:E; cbn [best].
  - split; [discriminate|]. intros (m & ms & H & _). discriminate.
  - destruct (max_greatest (map fst ms) (fst m)) as [G1 G2]. split.
    + intros H. injection H as <-. exists m, ms. cbn [fst snd]. repeat split; assumption.
    + intros (m' & ms' & H & Hs & H1 & H2). injection H as <- <-. cbn [map] in H1, H2. destruct line as [n w]. cbn [fst snd] in *. subst w. do 2 f_equal.
      apply (greatest_unique (fst m :: map fst ms)); assumption.
Qed.
Lemma names_form p l k m : In m (names p l k) -> canonicalize p (snd m) = k.
Proof. intros H. apply filter_In in H. destruct H as [_ H]. destruct m as [n w]. cbn [snd] in *. destruct w as [|c w]; [discriminate|]. apply teq. exact H. Qed.
Lemma dictionary_lemma p l : let lines := dump (fold_left (enter_entry p) l []) in
  (forall line, In line lines <-> exists k, entered p l k line) /\
  NoDup (map (fun line => canonicalize p (snd line)) lines) /\ StronglySorted (fun a b => (fst b <= fst a)%Z) lines.
Proof.
  cbv zeta. rewrite entries_mentions. set (wl := fold_left (put p) (flat_map (mentions p) l) []). set (lt := fun a b : text * (Z * text) => Z.ltb (fst (snd a)) (fst (snd b))).
  assert (Hn : NoDup (map fst wl)) by (apply put_nodup; constructor).
  assert (Hg : forall k line, In (k, line) wl <-> entered p l k line) by (intros k line; rewrite <- get_in by exact Hn; unfold wl; rewrite put_names; apply best_entered).
  assert (Hp : Permutation (sort_desc lt wl) wl) by apply sort_perm. unfold dump. fold lt. split; [|split].
  - intros line. rewrite in_map_iff. split.
    + intros ([k x] & E & Hi). cbn [snd] in E. subst x. exists k. apply Hg. eapply Permutation_in; [exact Hp|exact Hi].
    + intros (k & H). exists (k, line). split; [reflexivity|]. eapply Permutation_in; [apply Permutation_sym; exact Hp|]. apply Hg. exact H.
  - assert (E : map (fun line => canonicalize p (snd line)) (map snd (sort_desc lt wl)) = map fst (sort_desc lt wl)).
    { rewrite map_map. apply map_ext_in. intros [k line] Hi. cbn [fst snd]. apply (Permutation_in _ Hp) in Hi. apply Hg in Hi. destruct Hi as (m & ms & E & Es & _). rewrite Es. apply (names_form p l). rewrite E. left. reflexivity. }
    rewrite E. eapply Permutation_NoDup; [|exact Hn]. apply Permutation_map, Permutation_sym. exact Hp.
  - assert (HS : StronglySorted (fun a b => lt a b = false) (sort_desc lt wl)).
    { apply sort_sorted; unfold lt; [intros a b H; apply Z.ltb_lt in H; apply Z.ltb_ge; lia|intros a b c H1 H2; apply Z.ltb_ge in H1, H2; apply Z.ltb_ge; lia]. }
    clear Hp. induction HS as [|a r HS IH Ha]; [constructor|]. cbn [map]. constructor.
    + exact IH.
    + apply Forall_map. eapply Forall_impl; [|exact Ha]. intros b Hb. unfold lt in Hb. apply Z.ltb_ge in Hb. exact Hb.
Qed.
