(** Properties C67-C72: addresses, links and requests; how lines are separated. *)
From Coq Require Import String Lia ZArith.
From Verif Require Import LinesProofs DictProofs ParserProofs PropApps AppsProofs SpaceProofs HttpProofs HttpSpec.
Local Open Scope list_scope.

(** ** C67: the address of the page holds the query *)
(** After a query has been submitted the address of the page is a link: whoever opens it finds the query in the
    input field, whatever characters it holds. *)
Theorem C67_link_holds_query : forall t, Forall scalar t -> opened_at (address_of t) = Some t.
Proof. exact opened_address. Qed.
Print Assumptions C67_link_holds_query.
(** The link has no spaces and none of the characters that end a link in a text. *)
Theorem C67_link_is_plain : forall t, Forall scalar t -> Forall (fun c => (33 <= c <= 126)%N /\ ~ In c [34; 60; 62; 92; 94; 96; 123; 124; 125]%N) (address_of t).
Proof. exact address_plain. Qed.
Print Assumptions C67_link_is_plain.
(** Different queries have different links. *)
Theorem C67_links_differ : forall t t', Forall scalar t -> Forall scalar t' -> address_of t = address_of t' -> t = t'.
Proof. intros t t' S S' E. pose proof (opened_address t S) as H. rewrite E, (opened_address t' S') in H. injection H as H. symmetry. exact H. Qed.
Print Assumptions C67_links_differ.
(** A link of an example leads to the query the example runs, and this query means what is shown. *)
Theorem C67_examples : forall u t, Forall scalar t -> opened_at (example_link t) = Some (example_query t) /\ parse_query u (example_query t) = parse_query u t.
Proof. intros u t S. split; [exact (opened_address _ (example_scalar t S)) | symmetry; apply respaced_parse, example_respaced]. Qed.
Print Assumptions C67_examples.
Example C67_witness : opened_at (address_of (str "h.... _ w....; <hello+> %23 100%" ++ [10; 233; 9731; 128512]%N)) = Some (str "h.... _ w....; <hello+> %23 100%" ++ [10; 233; 9731; 128512]%N) /\
  address_of [233; 32; 37]%N = str "%C3%A9%20%25" /\ example_query (str "<smiles>;  .*ss.*") = str "<smiles>" ++ 10%N :: str ".*ss.*".
Proof. vm_compute. auto. Qed.
(** An address that was not made by the page may end its script: "100%". *)
Theorem C67_other_address_refuted : opened_at (fragment_of (str "#100%")) = None.
Proof. reflexivity. Qed.
Print Assumptions C67_other_address_refuted.

(** ** C68: the links beside a match *)
(** They look the match up if and only if its text has none of "&", "#" and "+". *)
Theorem C68_google_partial : forall p, Forall scalar (full_text p) ->
  (parameter (google_link p) (str "q") (str "define:" ++ full_text p) <-> ~ In 38%N (full_text p) /\ ~ In 35%N (full_text p) /\ ~ In 43%N (full_text p)).
Proof. intros p S. split; [intros H; exact (google_value _ _ _ S eq_refl H eq_refl) | intros H; exact (google_found _ S H)]. Qed.
Print Assumptions C68_google_partial.
Theorem C68_wikipedia_partial : forall p, Forall scalar (full_text p) ->
  (parameter (wiki_link p) (str "search") (full_text p) <-> ~ In 38%N (full_text p) /\ ~ In 35%N (full_text p) /\ ~ In 43%N (full_text p)).
Proof. intros p S. split; [intros H; exact (wiki_value _ _ _ S eq_refl H eq_refl) | intros H; exact (wiki_found _ S H)]. Qed.
Print Assumptions C68_wikipedia_partial.
(** The third one looks up the text before the first "/", "?" or "#". *)
Theorem C68_crossword_partial : forall p x, Forall scalar (full_text p) ->
  (last_segment (cxio_link p) (str "https://crossword-solver.io/clue/") x <-> before (str "/?#") (full_text p) x).
Proof. intros p x S. exact (cxio_value _ x S). Qed.
Print Assumptions C68_crossword_partial.
Definition text_of (t : text) : list word := [mkWord 0 [] t 1].
Theorem C68_ampersand_refuted : full_text (text_of (str "r&b")) = str "r&b" /\
  ~ parameter (google_link (text_of (str "r&b"))) (str "q") (str "define:r&b") /\ ~ parameter (wiki_link (text_of (str "r&b"))) (str "search") (str "r&b") /\
  parameter (wiki_link (text_of (str "r&b"))) (str "search") (str "r").
Proof.
  split; [reflexivity |].
  assert (S : Forall scalar (full_text (text_of (str "r&b")))) by (change (full_text (text_of (str "r&b"))) with [114; 38; 98]%N; repeat (constructor; [unfold scalar; lia |]); constructor).
  assert (A : In 38%N (full_text (text_of (str "r&b")))) by (right; left; reflexivity).
  split. { intros H. apply (C68_google_partial _ S) in H. destruct H as [H _]. exact (H A). }
  split. { intros H. apply (C68_wikipedia_partial _ S) in H. destruct H as [H _]. exact (H A). }
  exists (str "https://en.wikipedia.org/w/index.php"), (str "ns0=1&search=r&b"), (str "ns0=1&"), (str "r"), (str "&b").
  split; [reflexivity |]. split; [not_escape |]. split; [not_escape |]. split; [apply before_end; repeat (constructor; [not_escape |]); constructor |].
  split; [right; exists (str "ns0=1"); reflexivity |]. split; [right; exists (str "b"); reflexivity |]. split; [not_escape |]. split; [not_escape |]. split; [not_escape |]. reflexivity.
Qed.
Print Assumptions C68_ampersand_refuted.
Theorem C68_slash_refuted : full_text (text_of (str "and/or")) = str "and/or" /\ last_segment (cxio_link (text_of (str "and/or"))) (str "https://crossword-solver.io/clue/") (str "and") /\
  ~ last_segment (cxio_link (text_of (str "and/or"))) (str "https://crossword-solver.io/clue/") (str "and/or").
Proof.
  split; [reflexivity |].
  assert (S : Forall scalar (full_text (text_of (str "and/or")))) by (change (full_text (text_of (str "and/or"))) with [97; 110; 100; 47; 111; 114]%N; repeat (constructor; [unfold scalar; lia |]); constructor).
  assert (B : before (str "/?#") (str "and/or") (str "and")) by (apply (before_stop (str "/?#") (str "and") 47%N (str "or")); [repeat (constructor; [not_escape |]); constructor | left; reflexivity]).
  split; [apply (C68_crossword_partial _ _ S); exact B |]. intros H. apply (C68_crossword_partial _ _ S) in H. pose proof (before_fun _ _ _ _ B H). discriminate.
Qed.
Print Assumptions C68_slash_refuted.
Example C68_witness : full_text [mkWord 0 [] (str "caf" ++ [233%N]) 1; mkWord 0 [] (str "ole") 2] = str "caf" ++ [233%N] ++ str " ole" /\
  wiki_link [mkWord 0 [] (str "caf" ++ [233%N]) 1; mkWord 0 [] (str "ole") 2] = str "https://en.wikipedia.org/w/index.php?ns0=1&search=caf%C3%A9%20ole".
Proof. vm_compute. auto. Qed.

(** ** C69: GET /query/... *)
(** A query, its UTF-8 bytes written with percent-encoding in whatever way (any byte may be escaped, with
    either case of digits; only what may stand for itself in a path is not escaped), is answered in plain text;
    a query string is ignored. *)
Theorem C69_get : forall s d r q bytes t rest, req_method r = Get -> in_utf8 q bytes -> q <> [] -> percent_encoded pchar bytes t ->
  req_target r = str "/query/" ++ t ++ rest -> (rest = [] \/ exists x, rest = 63%N :: x) -> (N.of_nat (length (req_target r)) <= 65534)%N ->
  http_reply s d r = Some (http_request s d q true).
Proof. intros s d r q bytes t rest M U Hq E T R L. unfold http_reply. rewrite (get_encoded r q bytes t rest M U Hq E T R L). reflexivity. Qed.
Print Assumptions C69_get.
(** Bytes that begin no character of UTF-8 are read as U+FFFD (a POST with such bytes panics: C70). *)
Theorem C69_damaged : forall s d r q bytes t rest, req_method r = Get -> in_damaged_utf8 q bytes -> q <> [] -> percent_encoded pchar bytes t ->
  req_target r = str "/query/" ++ t ++ rest -> (rest = [] \/ exists x, rest = 63%N :: x) -> (N.of_nat (length (req_target r)) <= 65534)%N ->
  http_reply s d r = Some (http_request s d q true).
Proof. intros s d r q bytes t rest M U Hq E T R L. unfold http_reply. rewrite (get_damaged r q bytes t rest M U Hq E T R L). reflexivity. Qed.
Print Assumptions C69_damaged.
Example C69_damaged_met : in_damaged_utf8 [97; 65533; 98]%N [97; 255; 98]%N /\ dispatch (mkRequest Get (str "/query/a%ffb") None [] false) = Answer [97; 65533; 98]%N true.
Proof.
  split; [|reflexivity]. apply (dam_char 97 [97]%N); [unfold scalar; lia | apply utf8_one; reflexivity |]. apply dam_stray; [unfold stray; lia |].
  apply (dam_char 98 [98]%N); [unfold scalar; lia | apply utf8_one; reflexivity | constructor].
Qed.
(** So encodeURIComponent, the documented ENCODEURL, will do. *)
Theorem C69_encoded_component : forall s d r q, req_method r = Get -> Forall scalar q -> q <> [] ->
  req_target r = str "/query/" ++ encode_uri_component q -> (N.of_nat (length (req_target r)) <= 65534)%N -> http_reply s d r = Some (http_request s d q true).
Proof. intros s d r q M S Hq T L. unfold http_reply. rewrite (get_component r q M S Hq T L). reflexivity. Qed.
Print Assumptions C69_encoded_component.
(** Which requests run a query in plain text, and which query. *)
Theorem C69_exactly : forall r q, dispatch r = Answer q true <-> req_method r = Get /\
  exists seg rest, request_path (req_target r) (str "/query/" ++ seg ++ rest) /\ seg <> [] /\ ~ In 47%N seg /\ further rest /\ q = decode_utf8_lossy (percent_decode seg).
Proof. exact get_answer. Qed.
Print Assumptions C69_exactly.
Definition get (target : text) : request := mkRequest Get target None [] false.
Example C69_witness : dispatch (get (str "/query/%3csmiles%3E%3B%20.*ss.*?x=1")) = Answer (str "<smiles>; .*ss.*") true /\
  str "/query/" ++ encode_uri_component (str "#limit 3;a/b" ++ [233%N]) = str "/query/%23limit%203%3Ba%2Fb%C3%A9" /\
  dispatch (get (str "/query/%23limit%203%3Ba%2Fb%C3%A9")) = Answer (str "#limit 3;a/b" ++ [233%N]) true.
Proof. vm_compute. auto. Qed.
(** With encodeURI, which leaves some characters, the query is cut or not seen; without a query there is the page. *)
Theorem C69_encode_uri_refuted : dispatch (get (str "/query/" ++ encode_uri (str "a/b"))) = Answer (str "a") true /\
  dispatch (get (str "/query/" ++ encode_uri (str "(cat)?s"))) = Answer (str "(cat)") true /\ dispatch (get (str "/query/" ++ encode_uri (str "#limit 3;cat"))) = Files.
Proof. vm_compute. auto. Qed.
Print Assumptions C69_encode_uri_refuted.

(** ** C70: POST /query *)
(** A body of at most 64 kB that is UTF-8 is answered as the query it holds; nothing else runs a query. *)
Theorem C70_post_partial : forall r q, dispatch r = Answer q false <-> posted r /\ in_utf8 q (req_body r).
Proof.
  intros r q. rewrite (post_served r (Answer q false) (or_intror (ex_intro _ q eq_refl))). rewrite <- from_utf8_iff. destruct (from_utf8 (req_body r)) as [t |]; split; intros [P H]; split; try exact P; try congruence; discriminate.
Qed.
Print Assumptions C70_post_partial.
Theorem C70_reply : forall s d r q, posted r -> in_utf8 q (req_body r) -> http_reply s d r = Some (http_request s d q false).
Proof. intros s d r q P U. unfold http_reply. rewrite (proj2 (C70_post_partial r q) (conj P U)). reflexivity. Qed.
Print Assumptions C70_reply.
(** The handler panics exactly for bodies that are not UTF-8. *)
Theorem C70_panics : forall r, dispatch r = Crash <-> posted r /\ ~ exists q, in_utf8 q (req_body r).
Proof.
  intros r. rewrite (post_served r Crash (or_introl eq_refl)). destruct (from_utf8 (req_body r)) as [t |] eqn:E.
  - split; [intros [_ H]; discriminate | intros [_ H]; exfalso; apply H; exists t; apply from_utf8_iff, E].
  - split; intros [P _]; (split; [exact P |]); [| reflexivity]. intros (q & H). apply from_utf8_iff in H. congruence.
Qed.
Print Assumptions C70_panics.
Definition post (body : list N) : request := mkRequest Post (str "/query") (Some (N.of_nat (length body))) body false.
Lemma post_posted body : (N.of_nat (length body) <= 65536)%N -> posted (post body).
Proof.
  intros L. split; [reflexivity |]. split; [exists []; split; [apply uri_path_iff; reflexivity | left; reflexivity] |]. exists (N.of_nat (length body)). split; [reflexivity | exact L].
Qed.
(** "café" in Latin-1 *)
Theorem C70_not_utf8_refuted : exists body, Forall (fun b => (b < 256)%N) body /\ posted (post body) /\ dispatch (post body) = Crash.
Proof.
  exists [99; 97; 102; 233]%N. split; [repeat (constructor; [lia |]); constructor |]. split; [apply post_posted; vm_compute; discriminate | vm_compute; reflexivity].
Qed.
Print Assumptions C70_not_utf8_refuted.
(** A longer one is not refused: there is the page instead. *)
Theorem C70_long_refuted : forall r n, req_method r = Post -> req_target r = str "/query" -> req_length r = Some n -> (65536 < n)%N -> dispatch r = Files.
Proof.
  intros r n M T L G. unfold dispatch. rewrite T. change (uri_path (str "/query")) with (Some (str "/query")). cbn [tl first_route routes].
  unfold get_query, post_query, ws_route, wordlist_route, fixed_route. rewrite M, L. rewrite (proj2 (N.leb_gt n 65536) G). reflexivity.
Qed.
Print Assumptions C70_long_refuted.
Example C70_witness : in_utf8 (str "caf" ++ [233%N]) [99; 97; 102; 195; 169]%N /\ posted (post [99; 97; 102; 195; 169]%N) /\ dispatch (post [99; 97; 102; 195; 169]%N) = Answer (str "caf" ++ [233%N]) false.
Proof. split; [apply from_utf8_iff; vm_compute; reflexivity |]. split; [apply post_posted; vm_compute; discriminate | vm_compute; reflexivity]. Qed.

(** ** C71: downloading a wordlist *)
(** The names that can be asked for at all *)
Theorem C71_names_partial : forall name, (exists r, dispatch r = Wordlist name) <-> name <> [] /\ Forall segment_char name /\ (N.of_nat (length name) <= 65524)%N.
Proof. exact download. Qed.
Print Assumptions C71_names_partial.
(** A loaded wordlist with such a name is there at its address, its words one on each line; another name gives the default. *)
Theorem C71_download : forall s d u files r name rest ws, sv_lists s = load_lists u files [] -> Forall (fun f => Forall (fun l => ~ In 10%N l) (snd f)) files ->
  req_method r = Get -> request_path (req_target r) (str "/wordlist/" ++ name ++ rest) -> name <> [] -> ~ In 47%N name -> further rest ->
  In (name, ws) (sv_lists s) \/ ~ In name (map fst (sv_lists s)) /\ In (str "default", ws) (sv_lists s) ->
  exists body, http_reply s d r = Some ([], Ok body) /\ text_lines body (map w_text ws).
Proof.
  intros s d u files r name rest ws E F M P Hn K R H. rewrite E in H. destruct (C48_wordlist_download u files name ws F H) as (body & G & T). exists body. split; [| exact T].
  unfold http_reply. rewrite (proj2 (wordlist_served r name)); [rewrite E, G; reflexivity |]. split; [exact M |]. exists rest. auto.
Qed.
Print Assumptions C71_download.
Example C71_witness : Forall segment_char (str "npl-allwords2.txt") /\ dispatch (get (str "/wordlist/npl-allwords2.txt")) = Wordlist (str "npl-allwords2.txt").
Proof. split; [| vm_compute; reflexivity]. repeat (constructor; [apply segment_char_iff; split; [apply path_char_iff; reflexivity | not_escape] |]). constructor. Qed.
(** The address is not decoded: no request reaches a wordlist whose name has a space or a letter outside ASCII. *)
Theorem C71_space_refuted : forall r name, In 32%N name -> dispatch r <> Wordlist name.
Proof.
  intros r name I H. destruct (proj1 (download name) (ex_intro _ r H)) as (_ & F & _). rewrite Forall_forall in F. destruct (F _ I) as [P _]. apply path_char_iff in P. discriminate P.
Qed.
Print Assumptions C71_space_refuted.
Theorem C71_encoded_refuted : dispatch (get (str "/wordlist/" ++ encode_uri_component (str "my words"))) = Wordlist (str "my%20words").
Proof. vm_compute. reflexivity. Qed.
Print Assumptions C71_encoded_refuted.

(** ** C72: separating lines *)
(** Lines separated by newlines and lines separated by semicolons are the same query, however they are indented. *)
Theorem C72_separators : forall u a a' t t', spaces a -> spaces a' -> respaced t t' -> parse_query u (a ++ t) = parse_query u (a' ++ t').
Proof. exact respaced_indented. Qed.
Print Assumptions C72_separators.
(** In particular a semicolon for every newline *)
Theorem C72_semicolons : forall u t, parse_query u (map (fun c => if N.eqb c 10 then 59%N else c) t) = parse_query u t.
Proof.
  intros u t. apply respaced_parse. induction t as [| c t IH]; [constructor |]. cbn [map]. destruct (N.eqb_spec c 10) as [-> | H].
  - apply (respaced_sep 59 10 [] []); [right; reflexivity | left; reflexivity | constructor | constructor | exact IH].
  - destruct (N.eqb_spec c 59) as [-> | K]; [apply (respaced_sep 59 59 [] []); [right; reflexivity | right; reflexivity | constructor | constructor | exact IH] |].
    apply respaced_char; [intros [X | X]; congruence | exact IH].
Qed.
Print Assumptions C72_semicolons.
Example C72_witness : forall u, respaced (str "#words 1;ab;   c*") (str "#words 1" ++ 10%N :: str "  ab" ++ 10%N :: str "c*") /\ exists q, parse_query u (str "#words 1;ab;   c*") = Ok (Parsed q) /\ length (q_expressions q) = 2.
Proof.
  intros u. split; [| eexists; split; [vm_compute; reflexivity | reflexivity]].
  do 8 (apply respaced_char; [intros [X | X]; discriminate X |]). apply (respaced_sep 59 10 [] (str "  ")); [right; reflexivity | left; reflexivity | constructor | repeat constructor |].
  do 2 (apply respaced_char; [intros [X | X]; discriminate X |]). apply (respaced_sep 59 10 (str "   ") []); [right; reflexivity | left; reflexivity | repeat constructor | constructor |].
  do 2 (apply respaced_char; [intros [X | X]; discriminate X |]). constructor.
Qed.
