(** Proofs about messages as texts. *)
From Coq Require Import String Lia ZArith.
From Verif Require Import PrintProofs SyntaxProofs7 HttpProofs.
From Verif Require Export JsonSpec.
Local Open Scope list_scope.

(** ** Strings *)
Lemma small_cases (P : N -> Prop) : (forall n, In n (map N.of_nat (seq 0 32)) -> P n) -> forall c, (c < 32)%N -> P c.
Proof. intros H c L. apply H. apply in_map_iff. exists (N.to_nat c). split; [apply N2Nat.id | apply in_seq; lia]. Qed.
Ltac cases32 := let n := fresh "n" in let H := fresh "H" in intros n H; cbn in H; repeat (destruct H as [<- | H]; [| ]); [.. | contradiction].
Lemma escape_plain c : (32 <= c)%N -> c <> 34%N -> c <> 92%N -> json_escape c = [c].
Proof. intros H1 H2 H3. unfold json_escape. nb; try lia. reflexivity. Qed.
Lemma read_escape c x : read_string (json_escape c ++ x) = and_then c (read_string x).
Proof.
  destruct (N.ltb_spec c 32) as [L | L].
  - revert c L. apply (small_cases (fun c => read_string (json_escape c ++ x) = and_then c (read_string x))). cases32; reflexivity.
  - destruct (N.eq_dec c 34) as [-> | A]; [reflexivity |]. destruct (N.eq_dec c 92) as [-> | B]; [reflexivity |]. rewrite (escape_plain c L A B). cbn [app read_string].
    rewrite (proj2 (N.eqb_neq _ _) A), (proj2 (N.eqb_neq _ _) B), (proj2 (N.ltb_ge _ _) L). reflexivity.
Qed.
Lemma read_written t r : read_string (flat_map json_escape t ++ 34%N :: r) = Some (t, r).
Proof. induction t as [| c t IH]; [reflexivity |]. cbn [flat_map]. rewrite <- app_assoc, read_escape, IH. reflexivity. Qed.
Lemma escape_char c : json_char c (json_escape c).
Proof.
  destruct (N.ltb_spec c 32) as [L | L].
  - revert c L. apply (small_cases (fun c => json_char c (json_escape c))).
    assert (H0 : forall h l, (h < 16)%N -> (l < 16)%N -> json_char (0 * 4096 + 0 * 256 + h * 16 + l) [92; 117; 48; 48; low_digit h; low_digit l]%N).
    { assert (D : forall h, (h < 16)%N -> hex (low_digit h) h) by (apply hex_16; intros n H; cbn in H; repeat (destruct H as [<- | H]; [right; reflexivity |]); contradiction).
      intros h l Hh Hl. apply char_code; try lia; [left; reflexivity | left; reflexivity | apply D, Hh | apply D, Hl]. }
    cases32; first [apply char_short; cbn; tauto | match goal with |- json_char ?n _ => exact (H0 (n / 16)%N (n mod 16)%N eq_refl eq_refl) end].
  - destruct (N.eq_dec c 34) as [-> | A]; [apply char_short; cbn; tauto |]. destruct (N.eq_dec c 92) as [-> | B]; [apply char_short; cbn; tauto |].
    rewrite (escape_plain c L A B). apply char_itself; assumption.
Qed.
Lemma escape_chars t : json_chars t (flat_map json_escape t).
Proof. induction t as [| c t IH]; [constructor |]. cbn [flat_map]. constructor; [apply escape_char | exact IH]. Qed.
Lemma escape_visible c : Forall (fun x => (32 <= x)%N) (json_escape c).
Proof.
  destruct (N.ltb_spec c 32) as [L | L].
  - revert c L. apply (small_cases (fun c => Forall (fun x => (32 <= x)%N) (json_escape c))). cases32; repeat constructor; discriminate.
  - destruct (N.eq_dec c 34) as [-> | A]; [repeat constructor; discriminate |]. destruct (N.eq_dec c 92) as [-> | B]; [repeat constructor; discriminate |].
    rewrite (escape_plain c L A B). repeat constructor. exact L.
Qed.
(** ** Numbers *)
Lemma digit_iff c : is_digit c = true <-> (48 <= c <= 57)%N.
Proof. apply digit_range. Qed.
Lemma digits_first f : forall n acc, (n < 2 ^ N.of_nat f)%N -> f <> 0 ->
  exists c d, digits_from f n acc = (c :: d) ++ acc /\ digits (c :: d) /\ decimal (c :: d) = n /\ (n = 0%N /\ c = 48%N /\ d = [] \/ c <> 48%N).
Proof.
  induction f as [| f IH]; intros n acc Hn Hf; [congruence |]. cbn [digits_from].
  assert (Hd : is_digit (48 + n mod 10)%N = true) by (apply digit_iff; pose proof (N.mod_lt n 10); lia).
  destruct (N.ltb_spec n 10) as [E | E].
  - exists (48 + n mod 10)%N, []. split; [reflexivity |]. split; [repeat constructor; exact Hd |]. rewrite N.mod_small by exact E. split; [unfold decimal; cbn [fold_left]; lia |].
    destruct (N.eq_dec n 0) as [-> | H]; [left; auto | right; lia].
  - destruct (IH (n / 10)%N ((48 + n mod 10)%N :: acc)) as (c & d & E1 & E2 & E3 & E4).
    + rewrite Nat2N.inj_succ, N.pow_succ_r' in Hn. pose proof (N.div_mod n 10). pose proof (N.mod_lt n 10). nia.
    + intros ->. cbn in Hn. lia.
    + exists c, (d ++ [(48 + n mod 10)%N]). rewrite E1. split; [cbn [app]; rewrite <- app_assoc; reflexivity |]. split; [rewrite app_comm_cons; apply Forall_app; split; [exact E2 | repeat constructor; exact Hd] |].
      split; [rewrite app_comm_cons, decimal_last, E3; pose proof (N.div_mod n 10); lia |]. destruct E4 as [(H & _) | H]; [| right; exact H].
      exfalso. pose proof (N.div_mod n 10). pose proof (N.mod_lt n 10). lia.
Qed.
Lemma write_number_first n : exists c d, write_number n = c :: d /\ digits (c :: d) /\ decimal (c :: d) = n /\ (n = 0%N /\ c = 48%N /\ d = [] \/ c <> 48%N).
Proof.
  unfold write_number. destruct (digits_first (S (N.to_nat (N.size n))) n []) as (c & d & E & H); [| discriminate | rewrite app_nil_r in E; eauto].
  rewrite Nat2N.inj_succ, N2Nat.id, N.pow_succ_r'. pose proof (N.size_gt n). lia.
Qed.
Definition stops (r : text) : Prop := match r with [] => True | c :: _ => ~ (48 <= c <= 57)%N end.
Lemma read_digits_spec d r : digits d -> stops r -> forall n, read_digits n (d ++ r) = (fold_left (fun v c => (v * 10 + (c - 48))%N) d n, r).
Proof.
  intros D S. induction D as [| c d Hc D IH]; intros n; cbn [app read_digits fold_left].
  - destruct r as [| c r]; [reflexivity |]. cbn [read_digits]. cbn [stops] in S. destruct (N.leb_spec 48 c); [| reflexivity]. destruct (N.leb_spec c 57); [lia | reflexivity].
  - apply digit_iff in Hc. rewrite (proj2 (N.leb_le 48 c)), (proj2 (N.leb_le c 57)) by lia. cbn [andb]. apply IH.
Qed.
Lemma read_number_spec n c d r : write_number n = c :: d -> stops r -> (48 <= c <= 57)%N /\ read_number c (d ++ r) = (n, r).
Proof.
  intros E S. destruct (write_number_first n) as (c' & d' & E' & D & V & F). rewrite E in E'. injection E' as <- <-. inversion D as [| ? ? Hc Dd]; subst. apply digit_iff in Hc. split; [exact Hc |].
  unfold read_number. destruct F as [(H1 & H2 & H3) | H].
  - subst c d. rewrite N.eqb_refl. reflexivity.
  - rewrite (proj2 (N.eqb_neq _ _) H), (read_digits_spec d r Dd S). reflexivity.
Qed.
Lemma number_json n : json_number n (write_number n).
Proof.
  destruct (write_number_first n) as (c & d & E & D & V & F). rewrite E. split; [exact D |]. split; [discriminate |]. split; [exact V |]. destruct F as [(_ & -> & ->) | F]; [left; reflexivity | right; exact F].
Qed.

(** ** Values, written without spaces *)
Fixpoint commas (l : list text) : text := match l with [] => [] | [x] => x | x :: l' => x ++ 44%N :: commas l' end.
Fixpoint print (v : json) : text :=
  match v with
  | JString t => write_string t
  | JNumber n => write_number n
  | JArray vs => 91%N :: commas (map print vs) ++ [93%N]
  | JObject fs => 123%N :: commas (map (fun f => write_string (fst f) ++ 58%N :: print (snd f)) fs) ++ [125%N]
  end.
Definition member (f : text * json) : text := write_string (fst f) ++ 58%N :: print (snd f).
Lemma print_head v : exists c x, print v = c :: x /\ json_space c = false /\ c <> 93%N.
Proof.
  destruct v as [t | n | vs | fs]; cbn [print]; [unfold write_string | destruct (write_number_first n) as (c & d & E & D & _); rewrite E | |]; eexists _, _; (split; [reflexivity |]).
  1, 3, 4: split; [reflexivity | discriminate]. inversion D as [| ? ? Hc Dd]; subst. apply digit_iff in Hc. split; [| lia]. unfold json_space. nb; try lia; reflexivity.
Qed.
Lemma skip_head c x : json_space c = false -> skip_space (c :: x) = c :: x.
Proof. intros H. cbn [skip_space]. rewrite H. reflexivity. Qed.
Lemma skip_print v r : skip_space (print v ++ r) = print v ++ r.
Proof. destruct (print_head v) as (c & x & -> & H & _). apply skip_head, H. Qed.
Lemma print_some v : 1 <= length (print v).
Proof. destruct (print_head v) as (c & x & -> & _). cbn. lia. Qed.
Lemma commas_more x y l : commas (x :: y :: l) = x ++ 44%N :: commas (y :: l). Proof. reflexivity. Qed.
Lemma read_all f :
  (forall v r, length (print v) <= f -> stops r -> read_json f (print v ++ r) = Some (v, r)) /\
  (forall vs v r, length (commas (map print (v :: vs))) + 1 <= f -> read_items f (commas (map print (v :: vs)) ++ 93%N :: r) = Some (v :: vs, r)) /\
  (forall fs m r, length (commas (map member (m :: fs))) + 1 <= f -> read_members f (commas (map member (m :: fs)) ++ 125%N :: r) = Some (m :: fs, r)).
Proof.
  induction f as [| f (IHv & IHi & IHm)].
  - split; [| split].
    + intros v r L. pose proof (print_some v). lia.
    + intros vs v r L. lia.
    + intros fs m r L. lia.
  - split; [| split].
    + intros v r L S. cbn [read_json]. rewrite skip_print. destruct v as [t | n | vs | fs]; cbn [print] in *.
      * unfold write_string. cbn [app]. rewrite N.eqb_refl, <- app_assoc. cbn [app]. rewrite read_written. reflexivity.
      * destruct (write_number_first n) as (c & d & E & D & _). rewrite E. cbn [app]. destruct (read_number_spec n c d r E S) as (Hc & R). rewrite R.
        rewrite (proj2 (N.eqb_neq c 34)) by lia. rewrite (proj2 (N.leb_le 48 c)), (proj2 (N.leb_le c 57)) by lia. reflexivity.
      * cbn [app]. change (N.eqb 91 34) with false. change (N.leb 48 91 && N.leb 91 57)%bool with false. cbn iota. rewrite N.eqb_refl. rewrite <- app_assoc. cbn [app]. destruct vs as [| v vs].
        -- reflexivity.
        -- match goal with |- match skip_space ?z with _ => _ end = _ => assert (K : exists c x, z = c :: x /\ json_space c = false /\ c <> 93%N) end.
           { destruct (print_head v) as (c & x & E & H1 & H2). cbn [map]. destruct (map print vs) as [| y l]; [cbn [commas] | rewrite commas_more]; rewrite E; cbn [app]; eexists _, _; split; [reflexivity | auto | reflexivity | auto]. }
           destruct K as (c & x & E & H1 & H2). rewrite E, (skip_head c x H1), (proj2 (N.eqb_neq _ _) H2), <- E, IHi; [reflexivity |]. cbn [length] in L. rewrite app_length in L. cbn [length] in L. lia.
      * cbn [app]. change (N.eqb 123 34) with false. change (N.leb 48 123 && N.leb 123 57)%bool with false. change (N.eqb 123 91) with false. cbn iota. rewrite N.eqb_refl. rewrite <- app_assoc. cbn [app]. destruct fs as [| m fs].
        -- reflexivity.
        -- change (fun f0 : text * json => write_string (fst f0) ++ 58%N :: print (snd f0)) with member in *.
           match goal with |- match skip_space ?z with _ => _ end = _ => assert (K : exists x, z = 34%N :: x) end.
           { destruct fs as [| y l]; cbn [map]; [cbn [commas] | rewrite commas_more]; unfold member, write_string; cbn [app]; eexists; reflexivity. }
           destruct K as (x & E). rewrite E. cbn [skip_space json_space N.eqb Pos.eqb orb]. rewrite <- E, IHm; [reflexivity |]. cbn [length] in L. rewrite app_length in L. cbn [length] in L. clear - L. unfold text in *. lia.
    + intros vs v r L. cbn [read_items]. pose proof (print_some v). destruct vs as [| v' vs].
      * cbn [map commas] in L |- *. rewrite IHv; [reflexivity | lia | cbn; lia].
      * cbn [map] in L |- *. rewrite commas_more in L |- *. rewrite app_length in L. cbn [length] in L. rewrite <- app_assoc. cbn [app]. rewrite IHv; [| lia | cbn; lia]. cbn [skip_space json_space N.eqb Pos.eqb orb].
        change (print v' :: map print vs) with (map print (v' :: vs)) in L |- *. rewrite IHi; [reflexivity |]. lia.
    + intros fs m r L. cbn [read_members]. destruct m as [k v]. pose proof (print_some v).
      assert (X : forall z, member (k, v) ++ z = 34%N :: flat_map json_escape k ++ 34%N :: 58%N :: print v ++ z).
      { intros z. unfold member, write_string. cbn [fst snd app]. rewrite <- !app_assoc. reflexivity. }
      assert (Y : length (member (k, v)) >= length (print v) + 1) by (unfold member; cbn [fst snd]; rewrite app_length; cbn [length]; lia).
      destruct fs as [| m fs].
      * cbn [map commas] in L |- *. rewrite X. cbn [skip_space json_space N.eqb Pos.eqb orb]. rewrite read_written. cbn [skip_space json_space N.eqb Pos.eqb orb]. rewrite IHv; [reflexivity | lia | cbn; lia].
      * cbn [map] in L |- *. rewrite commas_more in L |- *. rewrite app_length in L. cbn [length] in L. rewrite <- app_assoc. cbn [app]. rewrite X. cbn [skip_space json_space N.eqb Pos.eqb orb]. rewrite read_written. cbn [skip_space json_space N.eqb Pos.eqb orb].
        rewrite IHv; [| lia | cbn; lia]. cbn [skip_space json_space N.eqb Pos.eqb orb]. change (member m :: map member fs) with (map member (m :: fs)) in L |- *. rewrite IHm; [reflexivity |]. lia.
Qed.
Lemma parse_print v : json_parse (print v) = Some v.
Proof.
  unfold json_parse. destruct (read_all (length (print v))) as (H & _). specialize (H v [] (Nat.le_refl _) I). rewrite app_nil_r in H. rewrite H. reflexivity.
Qed.
(** ** Messages *)
Lemma words_print ws : write_words ws = commas (map print (map word_object ws)).
Proof.
  induction ws as [| w ws IH]; [reflexivity |].
  assert (E : write_word w = print (word_object w)).
  { unfold write_word, word_object. cbn [print map commas fst snd]. repeat (cbn [app]; rewrite <- app_assoc). reflexivity. }
  destruct ws as [| w' ws]; [cbn [write_words map commas]; exact E |].
  change (write_words (w :: w' :: ws)) with (write_word w ++ str "," ++ write_words (w' :: ws)). rewrite IH, E. reflexivity.
Qed.
Lemma write_print r : write r = print (object_of r).
Proof.
  destruct r as [t | t | p]; unfold write, object_of, match_object; [| | rewrite words_print]; cbn [print map commas fst snd]; repeat (cbn [app]; rewrite <- app_assoc); reflexivity.
Qed.
Lemma print_json : forall v, json_of v (print v).
Proof.
  fix IH 1. intros [t | n | vs | fs]; cbn [print].
  - unfold write_string. constructor. apply escape_chars.
  - constructor. apply number_json.
  - constructor. revert vs. fix IHs 1. intros [| v vs]; [constructor |]. pose proof (IH v) as H. pose proof (IHs vs) as G. clear IHs. cbn [map]. destruct vs as [| v' vs]; [exact (items_last v _ H) |]. cbn [map] in *. rewrite commas_more. exact (items_more v _ v' vs _ H G).
  - constructor. revert fs. fix IHs 1. intros [| [k v] fs]; [constructor |]. pose proof (IH v) as H. pose proof (IHs fs) as G. clear IHs. cbn [map fst snd].
    assert (K : json_of (JString k) (write_string k)) by (unfold write_string; constructor; apply escape_chars).
    destruct fs as [| m fs]; [exact (members_last k v _ _ K H) |]. cbn [map] in *. rewrite commas_more. rewrite <- app_assoc. exact (members_more k v _ _ m fs _ K H G).
Qed.
Lemma got_all p : got_words (map word_object p) = Some (map (fun w => (w_text w, w_score w)) p).
Proof. induction p as [| w p IH]; [reflexivity |]. cbn [map got_words]. rewrite IH. reflexivity. Qed.
Lemma told r x : json_parse x = Some (object_of r) -> (forall t, r = Status t -> t <> []) -> onmessage x = Some (told_of r).
Proof.
  intros P H. unfold onmessage. rewrite P. clear P. destruct r as [t | t | p].
  - specialize (H t eq_refl). destruct t as [| c t]; [congruence | reflexivity].
  - reflexivity.
  - unfold object_of, match_object. cbn [member_of].
    change (property_of (str "status") [(str "match", JObject [(str "phrase", JArray (map word_object p))])]) with (@None json).
    change (property_of (str "log") [(str "match", JObject [(str "phrase", JArray (map word_object p))])]) with (@None json).
    change (property_of (str "match") [(str "match", JObject [(str "phrase", JArray (map word_object p))])]) with (Some (JObject [(str "phrase", JArray (map word_object p))])).
    cbn iota. change (member_of (JObject [(str "phrase", JArray (map word_object p))]) (str "phrase")) with (Some (JArray (map word_object p))). cbn iota. rewrite got_all. reflexivity.
Qed.
Lemma message_read r : (forall t, r = Status t -> t <> []) -> onmessage (write r) = Some (told_of r).
Proof. apply told. rewrite write_print. apply parse_print. Qed.
Lemma message_json r : json_of (object_of r) (write r).
Proof. rewrite write_print. apply print_json. Qed.
Lemma number_visible n : Forall (fun x => (32 <= x)%N) (write_number n).
Proof. destruct (number_json n) as (D & _). revert D. apply Forall_impl. intros c H. apply digit_iff in H. lia. Qed.
Lemma string_visible t : Forall (fun x => (32 <= x)%N) (write_string t).
Proof.
  unfold write_string. constructor; [discriminate |]. apply Forall_app. split; [| repeat constructor; discriminate]. induction t as [| c t IH]; [constructor |]. cbn [flat_map]. apply Forall_app. split; [apply escape_visible | exact IH].
Qed.
Lemma commas_visible l : Forall (Forall (fun x => (32 <= x)%N)) l -> Forall (fun x => (32 <= x)%N) (commas l).
Proof.
  induction 1 as [| x l H L IH]; [constructor |]. destruct l as [| y l]; [exact H |]. rewrite commas_more. apply Forall_app. split; [exact H |]. constructor; [discriminate | exact IH].
Qed.
Lemma print_visible : forall v, Forall (fun x => (32 <= x)%N) (print v).
Proof.
  fix IH 1. intros [t | n | vs | fs]; cbn [print].
  - apply string_visible.
  - apply number_visible.
  - constructor; [discriminate |]. apply Forall_app. split; [| repeat constructor; discriminate]. apply commas_visible. induction vs as [| v vs IHs]; constructor; [apply IH | exact IHs].
  - constructor; [discriminate |]. apply Forall_app. split; [| repeat constructor; discriminate]. apply commas_visible. induction fs as [| [k v] fs IHs]; constructor; [| exact IHs].
    apply Forall_app. split; [apply string_visible |]. constructor; [discriminate | apply IH].
Qed.
Lemma message_visible r : Forall (fun x => (32 <= x)%N) (write r).
Proof. rewrite write_print. apply print_visible. Qed.
Lemma flat_line p : ~ In 10%N (flatten_phrase p).
Proof. intros H. pose proof (message_visible (Match p)) as V. rewrite Forall_forall in V. specialize (V _ H). lia. Qed.
Lemma listing_lines ps : text_lines (listing flatten_phrase false ps) (map flatten_phrase ps).
Proof.
  induction ps as [| p ps IH]; [constructor |]. unfold listing in *. cbn [map concat]. rewrite <- app_assoc. apply lines_one; [apply flat_line | exact IH].
Qed.
Lemma lines_read ps : Forall2 (fun p l => json_of (match_object p) l /\ onmessage l = Some (GotMatch (map (fun w => (w_text w, w_score w)) p))) ps (map flatten_phrase ps).
Proof.
  induction ps as [| p ps IH]; [constructor |]. cbn [map]. constructor; [| exact IH]. split; [exact (message_json (Match p)) |]. apply (message_read (Match p)). discriminate.
Qed.
Lemma lines_app a l : text_lines a l -> forall b m, text_lines b m -> text_lines (a ++ b) (l ++ m).
Proof. induction 1 as [| x t ls N H IH]; intros b m B; [exact B |]. cbn [app]. rewrite <- app_assoc. cbn [app]. apply (lines_one x (t ++ b) (ls ++ m)); [exact N | apply IH, B]. Qed.

(** ** Every other way to write a value *)
Lemma digit_value_of c n : (n < 16)%N -> hex c n -> digit_value c = Some n.
Proof.
  intros L. revert c. pattern n. revert n L. apply hex_16. intros n H. cbn in H.
  repeat (destruct H as [<- | H]; [intros c Hc; unfold hex in Hc; destruct Hc as [Hc | Hc]; try discriminate Hc; cbn in Hc; subst; try reflexivity; injection Hc as <-; reflexivity |]). contradiction.
Qed.
Lemma read_char c x r : json_char c x -> read_string (x ++ r) = and_then c (read_string r).
Proof.
  intros [c' H1 H2 H3 | c' e H | h1 h2 h3 h4 a b c' d Ha Hb Hc Hd L1 L2 L3 L4 S].
  - cbn [app read_string]. rewrite (proj2 (N.eqb_neq _ _) H2), (proj2 (N.eqb_neq _ _) H3), (proj2 (N.ltb_ge _ _) H1). reflexivity.
  - cbn [In] in H. repeat (destruct H as [H | H]; [injection H as <- <-; reflexivity |]). contradiction.
  - cbn [app read_string N.eqb Pos.eqb]. unfold four_digits. rewrite (digit_value_of _ _ L1 Ha), (digit_value_of _ _ L2 Hb), (digit_value_of _ _ L3 Hc), (digit_value_of _ _ L4 Hd).
    cbv zeta. replace (((h1 * 16 + h2) * 16 + h3) * 16 + h4)%N with (h1 * 4096 + h2 * 256 + h3 * 16 + h4)%N by lia.
    destruct (N.leb_spec 55296 (h1 * 4096 + h2 * 256 + h3 * 16 + h4)); cbn [andb]; [| reflexivity].
    destruct (N.leb_spec (h1 * 4096 + h2 * 256 + h3 * 16 + h4) 57343); [lia | reflexivity].
Qed.
Lemma read_chars t x r : json_chars t x -> read_string (x ++ 34%N :: r) = Some (t, r).
Proof. induction 1 as [| c x t y H _ IH]; [reflexivity |]. rewrite <- app_assoc, (read_char c x _ H), IH. reflexivity. Qed.
Lemma skip_blank s x : blank_text s -> skip_space (s ++ x) = skip_space x.
Proof.
  induction 1 as [| c s H _ IH]; [reflexivity |]. cbn [app skip_space]. replace (json_space c) with true; [exact IH |].
  cbn [In] in H. repeat (destruct H as [<- | H]; [reflexivity |]). contradiction.
Qed.
Lemma blank_stops s r : blank_text s -> stops r -> stops (s ++ r).
Proof. intros [| c s' H _] R; [exact R |]. cbn [app stops]. cbn [In] in H. lia. Qed.
Lemma number_head n d : json_number n d -> exists c d', d = c :: d' /\ (48 <= c <= 57)%N /\ forall r, stops r -> read_number c (d' ++ r) = (n, r).
Proof.
  intros (D & N & V & F). destruct d as [| c d]; [congruence |]. inversion D as [| ? ? Hc Dd]; subst. apply digit_iff in Hc. exists c, d. split; [reflexivity |]. split; [exact Hc |]. intros r S.
  unfold read_number. destruct F as [F | F].
  - injection F as -> ->. reflexivity.
  - cbn [hd] in F. rewrite (proj2 (N.eqb_neq _ _) F), (read_digits_spec d r Dd S). reflexivity.
Qed.
Lemma laid_head v x : laid v x -> exists c y, x = c :: y /\ json_space c = false /\ c <> 93%N.
Proof.
  intros [t y H | n d H | s H | vs y H | s H | fs y H]; try (eexists _, _; split; [reflexivity |]; split; [reflexivity | discriminate]).
  destruct (number_head n d H) as (c & d' & -> & Hc & _). exists c, d'. split; [reflexivity |]. split; [| lia]. unfold json_space. nb; try lia; reflexivity.
Qed.
Lemma skip_laid v x r : laid v x -> skip_space (x ++ r) = x ++ r.
Proof. intros H. destruct (laid_head v x H) as (c & y & -> & S & _). apply skip_head, S. Qed.
Lemma items_head vs x r : laid_items vs x -> exists c y, skip_space (x ++ r) = c :: y /\ c <> 93%N.
Proof.
  intros H. assert (K : exists s v y z, blank_text s /\ laid v y /\ x = s ++ y ++ z) by (destruct H; eauto 10).
  destruct K as (s & v & y & z & B & L & ->). rewrite <- !app_assoc, (skip_blank _ _ B), (skip_laid _ _ _ L). destruct (laid_head _ _ L) as (c & y' & -> & _ & N). cbn [app]. eauto.
Qed.
Lemma members_head fs x r : laid_members fs x -> exists y, skip_space (x ++ r) = 34%N :: y.
Proof.
  intros H. assert (K : exists s y, blank_text s /\ x = s ++ 34%N :: y) by (destruct H; eauto 10). destruct K as (s & y & B & ->). rewrite <- app_assoc, (skip_blank _ _ B). cbn. eauto.
Qed.
Scheme laid_min := Minimality for laid Sort Prop with laid_items_min := Minimality for laid_items Sort Prop with laid_members_min := Minimality for laid_members Sort Prop.
Combined Scheme laid_all from laid_min, laid_items_min, laid_members_min.
Ltac len H := repeat (rewrite app_length in H || cbn [length] in H).
Lemma read_laid :
  (forall v x, laid v x -> forall f s r, blank_text s -> length x <= f -> stops r -> read_json f (s ++ x ++ r) = Some (v, r)) /\
  (forall vs x, laid_items vs x -> forall f r, length x < f -> read_items f (x ++ 93%N :: r) = Some (vs, r)) /\
  (forall fs x, laid_members fs x -> forall f r, length x < f -> read_members f (x ++ 125%N :: r) = Some (fs, r)).
Proof.
  apply laid_all.
  - intros t x H f s r B L _. destruct f as [| f]; [cbn in L; lia |]. cbn [read_json]. rewrite (skip_blank _ _ B). cbn [app skip_space json_space N.eqb Pos.eqb orb]. rewrite <- app_assoc. cbn [app]. rewrite (read_chars t x r H). reflexivity.
  - intros n d H f s r B L S. destruct (number_head n d H) as (c & d' & -> & Hc & R). destruct f as [| f]; [cbn in L; lia |]. cbn [read_json]. rewrite (skip_blank _ _ B).
    rewrite (skip_laid (JNumber n) (c :: d') r (laid_number n (c :: d') H)). cbn [app]. rewrite (proj2 (N.eqb_neq c 34)) by lia. rewrite (proj2 (N.leb_le 48 c)), (proj2 (N.leb_le c 57)) by lia. cbn [andb]. rewrite (R r S). reflexivity.
  - intros s0 H f s r B L _. destruct f as [| f]; [cbn in L; lia |]. cbn [read_json]. rewrite (skip_blank _ _ B). cbn [app skip_space json_space N.eqb Pos.eqb orb N.leb N.compare Pos.compare Pos.compare_cont andb]. rewrite <- app_assoc, (skip_blank _ _ H). reflexivity.
  - intros vs x H IH f s r B L _. destruct f as [| f]; [cbn in L; lia |]. cbn [read_json]. rewrite (skip_blank _ _ B). cbn [app skip_space json_space N.eqb Pos.eqb orb N.leb N.compare Pos.compare Pos.compare_cont andb].
    rewrite <- app_assoc. cbn [app]. destruct (items_head vs x (93%N :: r) H) as (c & y & E & N). rewrite E, (proj2 (N.eqb_neq _ _) N), (IH f r); [reflexivity |]. len L. lia.
  - intros s0 H f s r B L _. destruct f as [| f]; [cbn in L; lia |]. cbn [read_json]. rewrite (skip_blank _ _ B). cbn [app skip_space json_space N.eqb Pos.eqb orb N.leb N.compare Pos.compare Pos.compare_cont andb]. rewrite <- app_assoc, (skip_blank _ _ H). reflexivity.
  - intros fs x H IH f s r B L _. destruct f as [| f]; [cbn in L; lia |]. cbn [read_json]. rewrite (skip_blank _ _ B). cbn [app skip_space json_space N.eqb Pos.eqb orb N.leb N.compare Pos.compare Pos.compare_cont andb].
    rewrite <- app_assoc. cbn [app]. destruct (members_head fs x (125%N :: r) H) as (y & E). rewrite E. cbn [N.eqb Pos.eqb]. rewrite (IH f r); [reflexivity |]. len L. lia.
  - intros v s x s' B _ IH B' f r L. destruct f as [| f]; [lia |]. cbn [read_items]. rewrite <- !app_assoc, IH; [| exact B | len L; lia | apply blank_stops; [exact B' | cbn; lia]].
    rewrite (skip_blank _ _ B'). reflexivity.
  - intros v s x s' vs y B _ IH B' _ IHs f r L. destruct f as [| f]; [lia |]. cbn [read_items]. rewrite <- !app_assoc. cbn [app]. rewrite IH; [| exact B | len L; lia | apply blank_stops; [exact B' | cbn; lia]].
    rewrite (skip_blank _ _ B'). cbn [skip_space json_space N.eqb Pos.eqb orb]. rewrite IHs; [reflexivity |]. len L. lia.
  - intros k n v x s1 s2 s3 s4 B1 K B2 B3 _ IH B4 f r L. destruct f as [| f]; [lia |]. cbn [read_members]. rewrite <- !app_assoc. cbn [app]. rewrite <- !app_assoc. cbn [app]. rewrite (skip_blank _ _ B1). cbn [skip_space json_space N.eqb Pos.eqb orb].
    rewrite <- ?app_assoc. cbn [app]. rewrite (read_chars k n _ K). rewrite <- ?app_assoc. cbn [app]. rewrite (skip_blank _ _ B2). cbn [skip_space json_space N.eqb Pos.eqb orb]. rewrite <- ?app_assoc.
    rewrite IH; [| exact B3 | len L; lia | apply blank_stops; [exact B4 | cbn; lia]]. rewrite (skip_blank _ _ B4). reflexivity.
  - intros k n v x s1 s2 s3 s4 fs y B1 K B2 B3 _ IH B4 _ IHs f r L. destruct f as [| f]; [lia |]. cbn [read_members]. rewrite <- !app_assoc. cbn [app]. rewrite <- !app_assoc. cbn [app]. rewrite (skip_blank _ _ B1). cbn [skip_space json_space N.eqb Pos.eqb orb].
    rewrite <- ?app_assoc. cbn [app]. rewrite (read_chars k n _ K). rewrite <- ?app_assoc. cbn [app]. rewrite (skip_blank _ _ B2). cbn [skip_space json_space N.eqb Pos.eqb orb]. rewrite <- ?app_assoc. cbn [app].
    rewrite IH; [| exact B3 | len L; lia | apply blank_stops; [exact B4 | cbn; lia]]. rewrite (skip_blank _ _ B4). cbn [skip_space json_space N.eqb Pos.eqb orb]. rewrite IHs; [reflexivity |]. len L. lia.
Qed.
Lemma parse_laid v x : laid_out v x -> json_parse x = Some v.
Proof.
  intros [s y s' B L B']. unfold json_parse. destruct read_laid as (R & _). rewrite (R v y L _ s s' B); [rewrite <- (app_nil_r s'), (skip_blank _ _ B'); reflexivity | rewrite !app_length; lia |].
  rewrite <- (app_nil_r s'). apply blank_stops; [exact B' | exact I].
Qed.
Lemma any_layout r x : (forall t, r = Status t -> t <> []) -> laid_out (object_of r) x -> onmessage x = Some (told_of r).
Proof. intros H L. apply told; [apply parse_laid, L | exact H]. Qed.
Lemma plain_chars t : Forall (fun c => (32 <= c)%N /\ c <> 34%N /\ c <> 92%N) t -> json_chars t t.
Proof. induction 1 as [| c t (H1 & H2 & H3) _ IH]; [constructor |]. exact (chars_cons c [c] t t (char_itself c H1 H2 H3) IH). Qed.
Ltac plain := apply plain_chars; repeat (constructor; [repeat split; discriminate |]); constructor.
Ltac blank := repeat (constructor; [cbn; tauto |]); constructor.
Lemma layout_met : exists x, laid_out (object_of (Log (str "J/"))) (str " {" ++ [9%N] ++ [34%N] ++ str "log" ++ 34%N :: str ": {" ++ 10%N :: x ++ [13%N] ++ str "} }") /\
  x = [34%N] ++ str "\u006d" ++ str "essage" ++ [34%N] ++ str " : " ++ [34%N] ++ str "\u004a\/" ++ [34%N].
Proof.
  eexists. split; [| reflexivity].
  assert (V : laid (JString (str "J/")) ([34%N] ++ str "\u004a\/" ++ [34%N])).
  { apply laid_string. refine (chars_cons 74 (str "\u004a") [47%N] (str "\/") _ (chars_cons 47 (str "\/") [] [] _ chars_nil)).
    - refine (char_code 0 0 4 10 _ _ _ _ _ _ _ _ _ _ _ _ _); try lia; [left | left | left | right]; reflexivity.
    - apply char_short. cbn. tauto. }
  assert (K : json_chars (str "message") (str "\u006d" ++ str "essage")).
  { refine (chars_cons 109 (str "\u006d") (str "essage") (str "essage") _ _); [| plain].
    refine (char_code 0 0 6 13 _ _ _ _ _ _ _ _ _ _ _ _ _); try lia; [left | left | left | right]; reflexivity. }
  assert (M : laid (JObject [(str "message", JString (str "J/"))]) (123%N :: ([10%N] ++ 34%N :: (str "\u006d" ++ str "essage") ++ 34%N :: [32%N] ++ 58%N :: [32%N] ++ ([34%N] ++ str "\u004a\/" ++ [34%N]) ++ [13%N]) ++ [125%N])).
  { apply laid_object. apply laid_member; [blank | exact K | blank | blank | exact V | blank]. }
  assert (L : json_chars (str "log") (str "log")) by plain.
  refine (laid_out_as _ [32%N] (123%N :: ([9%N] ++ 34%N :: str "log" ++ 34%N :: [] ++ 58%N :: [32%N] ++ (123%N :: ([10%N] ++ 34%N :: (str "\u006d" ++ str "essage") ++ 34%N :: [32%N] ++ 58%N :: [32%N] ++ ([34%N] ++ str "\u004a\/" ++ [34%N]) ++ [13%N]) ++ [125%N]) ++ [32%N]) ++ [125%N]) [] _ _ _); [blank | | blank].
  apply laid_object. apply laid_member; [blank | exact L | blank | blank | exact M | blank].
Qed.

(** ** Only JSON is read *)
Lemma digit_value_hex c n : digit_value c = Some n -> hex c n /\ (n < 16)%N.
Proof.
  assert (K : forall n, (n < 16)%N -> hex (if N.ltb n 10 then 48 + n else 55 + n)%N n /\ hex (if N.ltb n 10 then 48 + n else 87 + n)%N n).
  { apply hex_16. intros m H. cbn in H. repeat (destruct H as [<- | H]; [split; first [left; reflexivity | right; reflexivity] |]). contradiction. }
  unfold digit_value. destruct (N.leb_spec 48 c), (N.leb_spec c 57); cbn [andb].
  1: { intros [= <-]. split; [| lia]. destruct (K (c - 48)%N) as [K1 _]; [lia |]. destruct (N.ltb_spec (c - 48) 10); [| lia]. replace (48 + (c - 48))%N with c in K1 by lia. exact K1. }
  all: destruct (N.leb_spec 65 c), (N.leb_spec c 70); cbn [andb]; try lia.
  1: { intros [= <-]. split; [| lia]. destruct (K (c - 55)%N) as [K1 _]; [lia |]. destruct (N.ltb_spec (c - 55) 10); [lia |]. replace (55 + (c - 55))%N with c in K1 by lia. exact K1. }
  all: destruct (N.leb_spec 97 c), (N.leb_spec c 102); cbn [andb]; try lia; try discriminate.
  intros [= <-]. split; [| lia]. destruct (K (c - 87)%N) as [_ K1]; [lia |]. destruct (N.ltb_spec (c - 87) 10); [lia |]. replace (87 + (c - 87))%N with c in K1 by lia. exact K1.
Qed.
Lemma short_escape_in e v : short_escape e = Some v -> In (v, e) [(34, 34); (92, 92); (47, 47); (8, 98); (12, 102); (10, 110); (13, 114); (9, 116)]%N.
Proof.
  unfold short_escape. repeat match goal with |- context [N.eqb e ?k] => destruct (N.eqb_spec e k) as [-> | _]; [intros [= <-]; cbn; tauto |] end. discriminate.
Qed.
Lemma read_string_sound n : forall t s r, length t <= n -> read_string t = Some (s, r) -> exists x, json_chars s x /\ t = x ++ 34%N :: r.
Proof.
  induction n as [| n IH]; intros t s r L H; (destruct t as [| c t1]; [discriminate |]); [cbn in L; lia |]. cbn [read_string] in H. cbn [length] in L.
  assert (T : forall v t', length t' <= n -> and_then v (read_string t') = Some (s, r) -> exists s' x, s = v :: s' /\ json_chars s' x /\ t' = x ++ 34%N :: r).
  { intros v t' L' H'. destruct (read_string t') as [[s' r'] |] eqn:E; [| discriminate]. cbn [and_then] in H'. injection H' as <- <-. destruct (IH t' s' r' L' E) as (x & C & ->). eauto. }
  destruct (N.eqb_spec c 34) as [-> | N1]; [injection H as <- <-; exists []; split; [constructor | reflexivity] |].
  destruct (N.eqb_spec c 92) as [-> | N2].
  - destruct t1 as [| e t2]; [discriminate |]. cbn [length] in L. destruct (N.eqb_spec e 117) as [-> | N3].
    + destruct t2 as [| a [| b [| y [| z t3]]]]; try discriminate. destruct (four_digits a b y z) as [v |] eqn:F; [| discriminate]. cbn [length] in L. destruct (T v t3) as (s' & x & -> & C & ->); [lia | exact H |].
      unfold four_digits in F. destruct (digit_value a) as [h1 |] eqn:D1; [| discriminate]. destruct (digit_value b) as [h2 |] eqn:D2; [| discriminate]. destruct (digit_value y) as [h3 |] eqn:D3; [| discriminate]. destruct (digit_value z) as [h4 |] eqn:D4; [| discriminate].
      apply digit_value_hex in D1, D2, D3, D4. destruct D1, D2, D3, D4. cbv zeta in F.
      replace (((h1 * 16 + h2) * 16 + h3) * 16 + h4)%N with (h1 * 4096 + h2 * 256 + h3 * 16 + h4)%N in F by lia.
      destruct (N.leb_spec 55296 (h1 * 4096 + h2 * 256 + h3 * 16 + h4)), (N.leb_spec (h1 * 4096 + h2 * 256 + h3 * 16 + h4) 57343); cbn [andb] in F; try discriminate; injection F as <-.
      all: refine (ex_intro _ ([92; 117; a; b; y; z]%N ++ x) (conj (chars_cons _ _ _ _ (char_code h1 h2 h3 h4 a b y z _ _ _ _ _ _ _ _ _) C) eq_refl)); try assumption; lia.
    + destruct (short_escape e) as [v |] eqn:F; [| discriminate]. destruct (T v t2) as (s' & x & -> & C & ->); [lia | exact H |]. apply short_escape_in in F. cbn [In] in F.
      exists ([92%N; e] ++ x). split; [| reflexivity]. constructor; [| exact C]. apply char_short. cbn [In]. exact F.
  - destruct (N.ltb_spec c 32) as [_ | G]; [discriminate |]. destruct (T c t1) as (s' & x & -> & C & ->); [lia | exact H |]. exists ([c] ++ x). split; [| reflexivity]. constructor; [apply char_itself; assumption | exact C].
Qed.
Lemma skip_space_split t : exists s, blank_text s /\ t = s ++ skip_space t.
Proof.
  induction t as [| c t (s & B & E)]; [exists []; split; [constructor | reflexivity] |]. cbn [skip_space]. destruct (json_space c) eqn:J; [| exists []; split; [constructor | reflexivity]].
  exists (c :: s). split; [| cbn [app]; rewrite <- E; reflexivity]. constructor; [| exact B]. unfold json_space in J. rewrite !orb_true_iff, !N.eqb_eq in J. cbn [In]. destruct J as [[[J | J] | J] | J]; subst c; tauto.
Qed.
Lemma read_digits_sound t : forall n v r, read_digits n t = (v, r) -> exists d, digits d /\ t = d ++ r /\ v = fold_left (fun v c => (v * 10 + (c - 48))%N) d n.
Proof.
  induction t as [| c t IH]; intros n v r H; cbn [read_digits] in H; [injection H as <- <-; exists []; repeat split; constructor |].
  destruct (N.leb 48 c && N.leb c 57)%bool eqn:D; [| injection H as <- <-; exists []; repeat split; constructor].
  destruct (IH _ _ _ H) as (d & Dd & -> & ->). exists (c :: d). split; [| split; reflexivity]. constructor; [| exact Dd]. apply digit_iff. apply andb_prop in D. destruct D as [D1 D2]. apply N.leb_le in D1, D2. lia.
Qed.
Lemma read_number_sound c t n r : (48 <= c <= 57)%N -> read_number c t = (n, r) -> exists d, json_number n (c :: d) /\ t = d ++ r.
Proof.
  intros Hc H. unfold read_number in H. destruct (N.eqb_spec c 48) as [-> | Ne].
  - injection H as <- <-. exists []. split; [| reflexivity]. split; [repeat constructor |]. split; [discriminate |]. split; [reflexivity | left; reflexivity].
  - apply read_digits_sound in H. destruct H as (d & D & -> & ->). exists d. split; [| reflexivity]. split; [constructor; [apply digit_iff, Hc | exact D] |]. split; [discriminate |]. split; [reflexivity | right; exact Ne].
Qed.
Lemma read_sound f :
  (forall t v r, read_json f t = Some (v, r) -> exists s x, blank_text s /\ laid v x /\ t = s ++ x ++ r) /\
  (forall t vs r, read_items f t = Some (vs, r) -> exists x, laid_items vs x /\ t = x ++ 93%N :: r) /\
  (forall t fs r, read_members f t = Some (fs, r) -> exists x, laid_members fs x /\ t = x ++ 125%N :: r).
Proof.
  induction f as [| f (IHv & IHi & IHm)]; [repeat split; discriminate |]. split; [| split].
  - intros t v r H. cbn [read_json] in H. destruct (skip_space_split t) as (s & B & E). rewrite E. destruct (skip_space t) as [| c t1]; [discriminate |]. clear E. exists s.
    enough (X : exists x, laid v x /\ c :: t1 = x ++ r) by (destruct X as (x & L & X); exists x; split; [exact B |]; split; [exact L |]; rewrite X; reflexivity).
    destruct (N.eqb_spec c 34) as [-> | _].
    + destruct (read_string t1) as [[w r'] |] eqn:R; [| discriminate]. injection H as <- <-. destruct (read_string_sound _ _ _ _ (le_n _) R) as (x & C & ->). exists (34%N :: x ++ [34%N]). split; [constructor; exact C | cbn [app]; rewrite <- app_assoc; reflexivity].
    + destruct (N.leb 48 c && N.leb c 57)%bool eqn:D.
      * destruct (read_number c t1) as [n r'] eqn:R. injection H as <- <-. apply andb_prop in D. destruct D as [D1 D2]. apply N.leb_le in D1, D2. destruct (read_number_sound c t1 n r' (conj D1 D2) R) as (d & J & ->). exists (c :: d). split; [constructor; exact J | reflexivity].
      * clear D. destruct (N.eqb_spec c 91) as [-> | _]; [| destruct (N.eqb_spec c 123) as [-> | _]; [| discriminate]].
        -- destruct (skip_space_split t1) as (s1 & B1 & E1). destruct (skip_space t1) as [| e r1] eqn:K; [discriminate |]. destruct (N.eqb_spec e 93) as [-> | _].
           ++ injection H as <- <-. exists (91%N :: s1 ++ [93%N]). split; [constructor; exact B1 | rewrite E1; cbn [app]; rewrite <- app_assoc; reflexivity].
           ++ destruct (read_items f t1) as [[vs r'] |] eqn:R; [| discriminate]. injection H as <- <-. destruct (IHi _ _ _ R) as (x & L & ->). exists (91%N :: x ++ [93%N]). split; [constructor; exact L | cbn [app]; rewrite <- app_assoc; reflexivity].
        -- destruct (skip_space_split t1) as (s1 & B1 & E1). destruct (skip_space t1) as [| e r1] eqn:K; [discriminate |]. destruct (N.eqb_spec e 125) as [-> | _].
           ++ injection H as <- <-. exists (123%N :: s1 ++ [125%N]). split; [constructor; exact B1 | rewrite E1; cbn [app]; rewrite <- app_assoc; reflexivity].
           ++ destruct (read_members f t1) as [[fs r'] |] eqn:R; [| discriminate]. injection H as <- <-. destruct (IHm _ _ _ R) as (x & L & ->). exists (123%N :: x ++ [125%N]). split; [constructor; exact L | cbn [app]; rewrite <- app_assoc; reflexivity].
  - intros t vs r H. cbn [read_items] in H. destruct (read_json f t) as [[v t1] |] eqn:R; [| discriminate]. destruct (IHv _ _ _ R) as (s & x & B & L & ->). clear R.
    destruct (skip_space_split t1) as (s' & B' & E'). destruct (skip_space t1) as [| e t2]; [discriminate |]. destruct (N.eqb_spec e 93) as [-> | _]; [| destruct (N.eqb_spec e 44) as [-> | _]; [| discriminate]].
    + injection H as <- <-. exists (s ++ x ++ s'). split; [constructor; assumption | rewrite E', <- !app_assoc; reflexivity].
    + destruct (read_items f t2) as [[vs' r'] |] eqn:R2; [| discriminate]. injection H as <- <-. destruct (IHi _ _ _ R2) as (y & Ly & ->). exists (s ++ x ++ s' ++ 44%N :: y). split; [constructor; assumption | rewrite E', <- !app_assoc; reflexivity].
  - intros t fs r H. cbn [read_members] in H. destruct (skip_space_split t) as (s1 & B1 & E1). destruct (skip_space t) as [| q t0]; [discriminate |]. rewrite E1. clear E1 t. destruct (N.eqb_spec q 34) as [-> | _]; [| discriminate].
    destruct (read_string t0) as [[name t1] |] eqn:R; [| discriminate]. destruct (read_string_sound _ _ _ _ (le_n _) R) as (n & C & ->). clear R.
    destruct (skip_space_split t1) as (s2 & B2 & E2). destruct (skip_space t1) as [| k t2]; [discriminate |]. rewrite E2. clear E2 t1. destruct (N.eqb_spec k 58) as [-> | _]; [| discriminate].
    destruct (read_json f t2) as [[v t3] |] eqn:R; [| discriminate]. destruct (IHv _ _ _ R) as (s3 & x & B3 & L & ->). clear R.
    destruct (skip_space_split t3) as (s4 & B4 & E4). destruct (skip_space t3) as [| e t4]; [discriminate |]. rewrite E4. clear E4 t3. destruct (N.eqb_spec e 125) as [-> | _]; [| destruct (N.eqb_spec e 44) as [-> | _]; [| discriminate]].
    + injection H as <- <-. exists (s1 ++ 34%N :: n ++ 34%N :: s2 ++ 58%N :: s3 ++ x ++ s4). split; [constructor; assumption | repeat (rewrite <- !app_assoc; cbn [app]); reflexivity].
    + destruct (read_members f t4) as [[fs' r'] |] eqn:R2; [| discriminate]. injection H as <- <-. destruct (IHm _ _ _ R2) as (y & Ly & ->).
      exists (s1 ++ 34%N :: n ++ 34%N :: s2 ++ 58%N :: s3 ++ x ++ s4 ++ 44%N :: y). split; [constructor; assumption | repeat (rewrite <- !app_assoc; cbn [app]); reflexivity].
Qed.
Lemma parse_iff x v : json_parse x = Some v <-> laid_out v x.
Proof.
  split; [| apply parse_laid]. unfold json_parse. destruct (read_json (length x) x) as [[v' r] |] eqn:R; [| discriminate]. destruct (skip_space_split r) as (s' & B' & E'). destruct (skip_space r); [| discriminate]. intros [= <-].
  destruct (read_sound (length x)) as (S & _). destruct (S _ _ _ R) as (s & y & B & L & ->). rewrite app_nil_r in E'. subst r. constructor; assumption.
Qed.
Lemma message_laid x g : onmessage x = Some g -> exists v, laid_out v x.
Proof. unfold onmessage. destruct (json_parse x) as [v |] eqn:E; [| discriminate]. intros _. exists v. apply parse_iff, E. Qed.
