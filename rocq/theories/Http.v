(** Model of the addresses of the web application: the routes of noodle-webapp/src/main.rs (319-383) and the
    links of the page (noodle-webapp/static/index.html 408, 447, 517-537, 560-567), with what they use of
    the crates http, warp and percent-encoding, of ECMAScript and of the URL standard.

    Simplifications: texts of the script hold no lone surrogates (encodeURI throws for them); the size of the
    header of a request is bounded only by the size of its target; static files and the page are one case
    ([Files]); HTTP/1 only, with targets that are paths. *)
From Coq Require Import String.
From Verif Require Export Page.
Local Open Scope list_scope.

(** ** Bytes and characters *)
Definition in_span (lo hi b : N) : bool := (N.leb lo b && N.leb b hi)%bool.
(** core::str (Rust): the next character of some bytes and the rest. None: bytes that are not UTF-8, as
    many of them as one replacement character stands for. *)
Definition next_char (bs : list N) : option (option N * list N) :=
  match bs with
  | [] => None
  | a :: r =>
      if N.ltb a 128 then Some (Some a, r)
      else if in_span 194 223 a then
        match r with
        | b :: r1 => if in_span 128 191 b then Some (Some ((a - 192) * 64 + (b - 128))%N, r1) else Some (None, r)
        | [] => Some (None, r)
        end
      else if in_span 224 239 a then
        match r with
        | b :: r1 =>
            if in_span (if N.eqb a 224 then 160 else 128) (if N.eqb a 237 then 159 else 191) b then
              match r1 with
              | c :: r2 => if in_span 128 191 c then Some (Some ((a - 224) * 4096 + (b - 128) * 64 + (c - 128))%N, r2) else Some (None, r1)
              | [] => Some (None, r1)
              end
            else Some (None, r)
        | [] => Some (None, r)
        end
      else if in_span 240 244 a then
        match r with
        | b :: r1 =>
            if in_span (if N.eqb a 240 then 144 else 128) (if N.eqb a 244 then 143 else 191) b then
              match r1 with
              | c :: r2 =>
                  if in_span 128 191 c then
                    match r2 with
                    | d :: r3 => if in_span 128 191 d then Some (Some ((a - 240) * 262144 + (b - 128) * 4096 + (c - 128) * 64 + (d - 128))%N, r3)
                                 else Some (None, r2)
                    | [] => Some (None, r2)
                    end
                  else Some (None, r1)
              | [] => Some (None, r1)
              end
            else Some (None, r)
        | [] => Some (None, r)
        end
      else Some (None, r)
  end.
Fixpoint chars_of (fuel : nat) (bs : list N) : list (option N) :=
  match fuel with
  | 0 => []
  | S f => match next_char bs with None => [] | Some (c, r) => c :: chars_of f r end
  end.
(** String::from_utf8_lossy, used by percent-encoding 2.2 [PercentDecode::decode_utf8_lossy] (main.rs:362) *)
Definition decode_utf8_lossy (bs : list N) : text :=
  map (fun o => match o with Some c => c | None => 65533%N end) (chars_of (length bs) bs).
(** std::str::from_utf8 (main.rs:369) *)
Fixpoint all_some (l : list (option N)) : option text :=
  match l with
  | [] => Some []
  | Some c :: l' => match all_some l' with Some t => Some (c :: t) | None => None end
  | None :: _ => None
  end.
Definition from_utf8 (bs : list N) : option text := all_some (chars_of (length bs) bs).
(** ECMAScript UTF8Encode *)
Definition utf8_encode (c : N) : list N :=
  if N.ltb c 128 then [c]
  else if N.ltb c 2048 then [192 + c / 64; 128 + c mod 64]%N
  else if N.ltb c 65536 then [224 + c / 4096; 128 + (c / 64) mod 64; 128 + c mod 64]%N
  else [240 + c / 262144; 128 + (c / 4096) mod 64; 128 + (c / 64) mod 64; 128 + c mod 64]%N.

(** ** Percent-encoding *)
Definition hex_value (c : N) : option N :=
  if in_span 48 57 c then Some (c - 48)%N else if in_span 65 70 c then Some (c - 55)%N else if in_span 97 102 c then Some (c - 87)%N else None.
Definition hex_digit (n : N) : N := if N.ltb n 10 then (48 + n)%N else (55 + n)%N.
Definition escape (b : N) : text := [37%N; hex_digit (b / 16); hex_digit (b mod 16)].
(** percent-encoding 2.2: percent_decode_str (main.rs:362) *)
Fixpoint percent_decode (t : list N) : list N :=
  match t with
  | [] => []
  | c :: t1 =>
      if N.eqb c 37 then
        match t1 with
        | a :: b :: t2 =>
            match hex_value a, hex_value b with
            | Some h, Some l => (h * 16 + l)%N :: percent_decode t2
            | _, _ => c :: percent_decode t1
            end
        | _ => c :: percent_decode t1
        end
      else c :: percent_decode t1
  end.

(** ** ECMAScript: encodeURI, encodeURIComponent, decodeURI *)
Definition one_of (cs : text) (c : N) : bool := existsb (N.eqb c) cs.
Definition is_alnum (c : N) : bool := in_span 48 57 c || in_span 65 90 c || in_span 97 122 c.
Definition uri_mark (c : N) : bool := one_of (str "-_.!~*'()") c.
Definition uri_reserved (c : N) : bool := one_of (str ";/?:@&=+$,#") c.
Definition encode_with (kept : N -> bool) (t : text) : text :=
  flat_map (fun c => if kept c then [c] else flat_map escape (utf8_encode c)) t.
Definition encode_uri : text -> text := encode_with (fun c => is_alnum c || uri_mark c || uri_reserved c).
Definition encode_uri_component : text -> text := encode_with (fun c => is_alnum c || uri_mark c).
(** the byte an escape stands for, and the rest *)
Definition escaped_byte (t : text) : option (N * text) :=
  match t with
  | c :: a :: b :: t' =>
      if N.eqb c 37 then match hex_value a, hex_value b with Some h, Some l => Some ((h * 16 + l)%N, t') | _, _ => None end else None
  | _ => None
  end.
(** the bytes of a character after the first one *)
Fixpoint escaped_bytes (n : nat) (t : text) : option (list N * text) :=
  match n with
  | 0 => Some ([], t)
  | S m => match escaped_byte t with
           | Some (b, t1) => match escaped_bytes m t1 with Some (bs, t2) => Some (b :: bs, t2) | None => None end
           | None => None
           end
  end.
Definition extra_bytes (b : N) : option nat :=
  if in_span 192 223 b then Some 1 else if in_span 224 239 b then Some 2 else if in_span 240 247 b then Some 3 else None.
(** None: URIError *)
Fixpoint decode_uri_from (fuel : nat) (t : text) : option text :=
  match fuel with
  | 0 => Some []
  | S f =>
      match t with
      | [] => Some []
      | c :: t1 =>
          if N.eqb c 37 then
            match escaped_byte t with
            | None => None
            | Some (b, t2) =>
                if N.ltb b 128 then
                  match decode_uri_from f t2 with
                  | Some x => Some ((if uri_reserved b then firstn 3 t else [b]) ++ x)
                  | None => None
                  end
                else
                  match extra_bytes b with
                  | None => None
                  | Some n =>
                      match escaped_bytes n t2 with
                      | None => None
                      | Some (bs, t3) =>
                          match next_char (b :: bs) with
                          | Some (Some v, []) => match decode_uri_from f t3 with Some x => Some (v :: x) | None => None end
                          | _ => None
                          end
                      end
                  end
            end
          else match decode_uri_from f t1 with Some x => Some (c :: x) | None => None end
      end
  end.
Definition decode_uri (t : text) : option text := decode_uri_from (length t) t.

(** ** The address of the page *)
(** URL standard: the fragment after [location.hash = t], and [location.hash] for a fragment *)
Definition in_fragment (c : N) : bool := negb (N.leb c 32 || N.ltb 126 c || one_of [34; 60; 62; 96]%N c).
Definition fragment_of (t : text) : text :=
  let t := match t with c :: t' => if N.eqb c 35 then t' else t | [] => [] end in
  encode_with in_fragment (filter (fun c => negb (one_of [9; 10; 13]%N c)) t).
Definition hash (fragment : text) : text := match fragment with [] => [] | _ => 35%N :: fragment end.
(** index.html:447: the fragment of the address after a query has been submitted *)
Definition address_of (input : text) : text := fragment_of (35%N :: encode_uri input).
(** index.html:408: the input field when the page is opened at a fragment; None: the script ends there *)
Definition opened_at (fragment : text) : option text := decode_uri (skipn 1 (hash fragment)).
(** index.html:560-567: the query of an example and the fragment its link leads to *)
Fixpoint newline_spaces (after : bool) (t : text) : text :=
  match t with
  | [] => []
  | c :: t' => if N.eqb c 59 then 10%N :: newline_spaces true t'
               else if (after && N.eqb c 32)%bool then newline_spaces true t'
               else c :: newline_spaces false t'
  end.
Definition example_query (shown : text) : text := newline_spaces false shown.
Definition example_link (shown : text) : text := fragment_of (35%N :: encode_uri (example_query shown)).

(** ** The links beside a match: index.html:517-537 *)
Definition google_link (p : list word) : text := str "https://google.com/search?q=define:" ++ encode_uri (full_text p).
Definition wiki_link (p : list word) : text := str "https://en.wikipedia.org/w/index.php?ns0=1&search=" ++ encode_uri (full_text p).
Definition cxio_link (p : list word) : text := str "https://crossword-solver.io/clue/" ++ encode_uri (full_text p).

(** ** Requests *)
Inductive http_method := Get | Post | OtherMethod.
(** the target is the bytes of the request line; [upgrade]: the request has the headers of a websocket *)
Record request := mkRequest { req_method : http_method; req_target : list N; req_length : option N; req_body : list N; upgrade : bool }.
(** http 0.2 (uri/path.rs, PathAndQuery::from_shared): the path, up to "?" or "#"; only these bytes may be in
    it; None: the request is answered with an error. The size: uri/mod.rs MAX_LEN. *)
Definition in_path (b : N) : bool :=
  N.eqb b 33 || in_span 36 59 b || N.eqb b 61 || in_span 64 95 b || in_span 97 122 b || N.eqb b 124 || N.eqb b 126 || one_of [34; 123; 125]%N b.
Fixpoint path_of (t : list N) : option (list N) :=
  match t with
  | [] => Some []
  | c :: t' => if one_of (str "?#") c then Some []
               else if in_path c then match path_of t' with Some p => Some (c :: p) | None => None end else None
  end.
Definition uri_path (target : list N) : option (list N) :=
  if N.leb (N.of_nat (length target)) 65534 then match target with c :: _ => if N.eqb c 47 then path_of target else None | [] => None end else None.
(** warp 0.3.1 (filters/path.rs, route.rs): the next segment of a path and what is left of the path after it *)
Fixpoint segment (p : list N) : list N * list N :=
  match p with
  | [] => ([], [])
  | c :: p' => if N.eqb c 47 then ([], p') else let (s, r) := segment p' in (c :: s, r)
  end.

Inductive served :=
| BadRequest | Answer (query : text) (plaintext : bool) | Upgrade | Wordlist (name : text) | WordlistJs | Metrics
| Files                (* a static file, or the page *)
| Crash.               (* the handler panics *)
(** noodle-webapp/src/main.rs:319-383: the routes in order. [warp::path::param] takes a segment that is not
    empty, as it is; [content_length_limit] wants the header. None of the routes looks at what is left of the path
    after its last segment. *)
Definition get_query (r : request) (p : list N) : option served :=
  match req_method r with
  | Get => let (s, p1) := segment p in
           if text_eqb s (str "query") then
             match fst (segment p1) with [] => None | q => Some (Answer (decode_utf8_lossy (percent_decode q)) true) end
           else None
  | _ => None
  end.
Definition post_query (r : request) (p : list N) : option served :=
  match req_method r with
  | Post => if text_eqb (fst (segment p)) (str "query") then
              match req_length r with
              | Some n => if N.leb n 65536 then Some (match from_utf8 (req_body r) with Some t => Answer t false | None => Crash end) else None
              | None => None
              end
            else None
  | _ => None
  end.
Definition ws_route (r : request) (p : list N) : option served :=
  match req_method r with Get => if (text_eqb (fst (segment p)) (str "ws") && upgrade r)%bool then Some Upgrade else None | _ => None end.
Definition wordlist_route (r : request) (p : list N) : option served :=
  match req_method r with
  | Get => let (s, p1) := segment p in
           if text_eqb s (str "wordlist") then match fst (segment p1) with [] => None | name => Some (Wordlist name) end else None
  | _ => None
  end.
Definition fixed_route (name : text) (x : served) (r : request) (p : list N) : option served :=
  match req_method r with Get => if text_eqb (fst (segment p)) name then Some x else None | _ => None end.
Definition routes : list (request -> list N -> option served) :=
  [get_query; post_query; ws_route; wordlist_route; fixed_route (str "wordlists.js") WordlistJs; fixed_route (str "metrics") Metrics].
Fixpoint first_route (rs : list (request -> list N -> option served)) (r : request) (p : list N) : served :=
  match rs with [] => Files | f :: rs' => match f r p with Some x => x | None => first_route rs' r p end end.
Definition dispatch (r : request) : served :=
  match uri_path (req_target r) with None => BadRequest | Some p => first_route routes r (tl p) end.
