(** Specification for addresses, links and requests: Unicode, UTF-8, percent-encoding and how other programs
    read a URL. *)
From Coq Require Import String.
From Verif Require Export ParserSpec Http AppsSpec.
Local Open Scope list_scope.

(** A character: a Unicode scalar value. *)
Definition scalar (c : N) : Prop := (c < 55296 \/ 57344 <= c <= 1114111)%N.
(** The bytes of a character: its bits in groups of six, as few groups as hold it. *)
Inductive utf8 : N -> list N -> Prop :=
| utf8_one c : (c < 128)%N -> utf8 c [c]
| utf8_two x y : (x < 32)%N -> (y < 64)%N -> (128 <= x * 64 + y)%N -> utf8 (x * 64 + y) [192 + x; 128 + y]%N
| utf8_three x y z : (x < 16)%N -> (y < 64)%N -> (z < 64)%N -> (2048 <= x * 4096 + y * 64 + z)%N ->
    utf8 (x * 4096 + y * 64 + z) [224 + x; 128 + y; 128 + z]%N
| utf8_four x y z w : (x < 8)%N -> (y < 64)%N -> (z < 64)%N -> (w < 64)%N -> (65536 <= x * 262144 + y * 4096 + z * 64 + w)%N ->
    utf8 (x * 262144 + y * 4096 + z * 64 + w) [240 + x; 128 + y; 128 + z; 128 + w]%N.
Inductive in_utf8 : text -> list N -> Prop :=
| in_nil : in_utf8 [] []
| in_cons c bs t l : scalar c -> utf8 c bs -> in_utf8 t l -> in_utf8 (c :: t) (bs ++ l).
(** The same with bytes among the characters that begin no character: each stands for U+FFFD. *)
Definition stray (b : N) : Prop := (128 <= b <= 193 \/ 245 <= b <= 255)%N.
Inductive in_damaged_utf8 : text -> list N -> Prop :=
| dam_nil : in_damaged_utf8 [] []
| dam_char c bs t l : scalar c -> utf8 c bs -> in_damaged_utf8 t l -> in_damaged_utf8 (c :: t) (bs ++ l)
| dam_stray b t l : stray b -> in_damaged_utf8 t l -> in_damaged_utf8 (65533%N :: t) (b :: l).

(** A hexadecimal digit and its value *)
Definition hex (c n : N) : Prop :=
  nth_error (str "0123456789ABCDEF") (N.to_nat n) = Some c \/ nth_error (str "0123456789abcdef") (N.to_nat n) = Some c.
(** Bytes written in an address: some as they are, the others as "%" and two digits. *)
Inductive percent_encoded (plain : N -> Prop) : list N -> text -> Prop :=
| pe_nil : percent_encoded plain [] []
| pe_plain b bs t : plain b -> percent_encoded plain bs t -> percent_encoded plain (b :: bs) (b :: t)
| pe_escape b bs t h l x y : hex x h -> hex y l -> (h < 16)%N -> (l < 16)%N -> b = (h * 16 + l)%N ->
    percent_encoded plain bs t -> percent_encoded plain (b :: bs) (37%N :: x :: y :: t).
(** What may stand for itself in a segment of a path (RFC 3986: pchar). *)
Definition pchar (c : N) : Prop :=
  (48 <= c <= 57 \/ 65 <= c <= 90 \/ 97 <= c <= 122)%N \/ In c (str "-._~!$&'()*+,;=:@").

(** The part of a text before the first of some characters. *)
Inductive before (stops : text) : text -> text -> Prop :=
| before_end t : Forall (fun c => ~ In c stops) t -> before stops t t
| before_stop t c r : Forall (fun c => ~ In c stops) t -> In c stops -> before stops (t ++ c :: r) t.

(** How a server reads a parameter of a query (URL standard, application/x-www-form-urlencoded): the part of the
    address after "?" and before "#", split at "&", each part split at "="; "+" is a space. *)
Definition read_value (v t : text) : Prop :=
  decode_utf8_lossy (percent_decode (map (fun c => if N.eqb c 43 then 32%N else c) v)) = t.
Definition parameter (url name value : text) : Prop :=
  exists host query x v y, url = host ++ 63%N :: query /\ ~ In 63%N host /\ ~ In 35%N host /\
    before (str "#") query (x ++ name ++ 61%N :: v ++ y) /\
    (x = [] \/ exists x', x = x' ++ [38%N]) /\ (y = [] \/ exists y', y = 38%N :: y') /\
    ~ In 38%N v /\ ~ In 38%N name /\ ~ In 61%N name /\ read_value v value.
(** How a server reads the last segment of a path. *)
Definition last_segment (url prefix value : text) : Prop :=
  exists rest v, url = prefix ++ rest /\ before (str "/?#") rest v /\ decode_utf8_lossy (percent_decode v) = value.

(** The same lines of a query, however they are separated ([sep]) and indented by spaces. *)
Inductive respaced : text -> text -> Prop :=
| respaced_nil : respaced [] []
| respaced_char c t t' : ~ sep c -> respaced t t' -> respaced (c :: t) (c :: t')
| respaced_sep s s' a a' t t' : sep s -> sep s' -> spaces a -> spaces a' -> respaced t t' -> respaced (s :: a ++ t) (s' :: a' ++ t').

(** The path of a request: what its target says before "?" or "#", if it is not too long and holds only the
    characters a path may hold. *)
Definition path_char (c : N) : Prop :=
  (48 <= c <= 57 \/ 65 <= c <= 90 \/ 97 <= c <= 122)%N \/ In c (34%N :: str "!$%&'()*+,-./:;=@[\]^_{|}~").
Definition request_path (target path : list N) : Prop :=
  (N.of_nat (length target) <= 65534)%N /\ before (str "?#") target path /\ Forall path_char path /\ exists p, path = 47%N :: p.
(** Nothing more, or further segments. *)
Definition further (rest : list N) : Prop := rest = [] \/ exists x, rest = 47%N :: x.
(** A query that is posted, with the length of its body given *)
Definition posted (r : request) : Prop :=
  req_method r = Post /\ (exists rest, request_path (req_target r) (str "/query" ++ rest) /\ further rest) /\
  exists n, req_length r = Some n /\ (n <= 65536)%N.
(** The bytes of a segment of a path *)
Definition segment_char (c : N) : Prop := path_char c /\ c <> 47%N.
(** main.rs:112-122, 175-214, 319-383: the reply to a request that runs a query or asks for a wordlist (for Crash there is none) *)
Definition http_reply (s : server) (d : deadline) (r : request) : option (list effect * outcome text) :=
  match dispatch r with
  | Answer q plaintext => Some (http_request s d q plaintext)
  | Wordlist name => Some ([], get_wordlist (sv_lists s) name)
  | _ => None
  end.
