(** Specification for messages: JSON (RFC 8259) without optional white space, and what the messages hold. *)
From Coq Require Import String.
From Verif Require Export Json HttpSpec.
Local Open Scope list_scope.

(** A character of a string and how it may be written *)
Inductive json_char : N -> text -> Prop :=
| char_itself c : (32 <= c)%N -> c <> 34%N -> c <> 92%N -> json_char c [c]
| char_short c e : In (c, e) [(34, 34); (92, 92); (47, 47); (8, 98); (12, 102); (10, 110); (13, 114); (9, 116)]%N -> json_char c [92; e]%N
| char_code h1 h2 h3 h4 a b c d : hex a h1 -> hex b h2 -> hex c h3 -> hex d h4 -> (h1 < 16)%N -> (h2 < 16)%N -> (h3 < 16)%N -> (h4 < 16)%N ->
    ~ (55296 <= h1 * 4096 + h2 * 256 + h3 * 16 + h4 <= 57343)%N ->
    json_char (h1 * 4096 + h2 * 256 + h3 * 16 + h4) [92; 117; a; b; c; d]%N.
Inductive json_chars : text -> text -> Prop :=
| chars_nil : json_chars [] []
| chars_cons c x t y : json_char c x -> json_chars t y -> json_chars (c :: t) (x ++ y).
Definition json_number (n : N) (d : text) : Prop := digits d /\ d <> [] /\ decimal d = n /\ (d = [48%N] \/ hd 0%N d <> 48%N).
Inductive json_of : json -> text -> Prop :=
| of_string t x : json_chars t x -> json_of (JString t) (34%N :: x ++ [34%N])
| of_number n d : json_number n d -> json_of (JNumber n) d
| of_array vs x : json_items vs x -> json_of (JArray vs) (91%N :: x ++ [93%N])
| of_object fs x : json_members fs x -> json_of (JObject fs) (123%N :: x ++ [125%N])
with json_items : list json -> text -> Prop :=
| items_none : json_items [] []
| items_last v x : json_of v x -> json_items [v] x
| items_more v x v' vs y : json_of v x -> json_items (v' :: vs) y -> json_items (v :: v' :: vs) (x ++ 44%N :: y)
with json_members : list (text * json) -> text -> Prop :=
| members_none : json_members [] []
| members_last k v n x : json_of (JString k) n -> json_of v x -> json_members [(k, v)] (n ++ 58%N :: x)
| members_more k v n x f fs y : json_of (JString k) n -> json_of v x -> json_members (f :: fs) y -> json_members ((k, v) :: f :: fs) (n ++ 58%N :: x ++ 44%N :: y).

(** The documented objects *)
Definition word_object (w : word) : json := JObject [(str "text", JString (w_text w)); (str "score", JNumber (w_score w))].
Definition match_object (p : list word) : json := JObject [(str "match", JObject [(str "phrase", JArray (map word_object p))])].
Definition object_of (r : wire) : json :=
  match r with
  | Status t => JObject [(str "status", JString t)]
  | Log t => JObject [(str "log", JObject [(str "message", JString t)])]
  | Match p => match_object p
  end.
(** What the page gets to know *)
Definition told_of (r : wire) : got :=
  match r with
  | Status t => GotStatus t
  | Log t => GotLog t
  | Match p => GotMatch (map (fun w => (w_text w, w_score w)) p)
  end.

(** JSON with white space where it is allowed *)
Definition blank_text (x : text) : Prop := Forall (fun c => In c [32; 9; 10; 13]%N) x.
Inductive laid : json -> text -> Prop :=
| laid_string t x : json_chars t x -> laid (JString t) (34%N :: x ++ [34%N])
| laid_number n d : json_number n d -> laid (JNumber n) d
| laid_no_items s : blank_text s -> laid (JArray []) (91%N :: s ++ [93%N])
| laid_array vs x : laid_items vs x -> laid (JArray vs) (91%N :: x ++ [93%N])
| laid_no_members s : blank_text s -> laid (JObject []) (123%N :: s ++ [125%N])
| laid_object fs x : laid_members fs x -> laid (JObject fs) (123%N :: x ++ [125%N])
with laid_items : list json -> text -> Prop :=
| laid_item v s x s' : blank_text s -> laid v x -> blank_text s' -> laid_items [v] (s ++ x ++ s')
| laid_item_more v s x s' vs y : blank_text s -> laid v x -> blank_text s' -> laid_items vs y -> laid_items (v :: vs) (s ++ x ++ s' ++ 44%N :: y)
with laid_members : list (text * json) -> text -> Prop :=
| laid_member k n v x s1 s2 s3 s4 : blank_text s1 -> json_chars k n -> blank_text s2 -> blank_text s3 -> laid v x -> blank_text s4 ->
    laid_members [(k, v)] (s1 ++ 34%N :: n ++ 34%N :: s2 ++ 58%N :: s3 ++ x ++ s4)
| laid_member_more k n v x s1 s2 s3 s4 fs y : blank_text s1 -> json_chars k n -> blank_text s2 -> blank_text s3 -> laid v x -> blank_text s4 -> laid_members fs y ->
    laid_members ((k, v) :: fs) (s1 ++ 34%N :: n ++ 34%N :: s2 ++ 58%N :: s3 ++ x ++ s4 ++ 44%N :: y).
Inductive laid_out (v : json) : text -> Prop :=
| laid_out_as s x s' : blank_text s -> laid v x -> blank_text s' -> laid_out v (s ++ x ++ s').
