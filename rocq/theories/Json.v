(** Model of the messages of the web application as texts: the types of noodle-webapp/src/main.rs:66-77 and
    noodle/src/words.rs:153-162 as serde (derive) and serde_json 1.0 write them, and how the page reads them
    (static/index.html:469-487, JSON.parse of ECMAScript).

    Simplifications: numbers are natural (scores are u32, which a Number of the script holds exactly; JSON.parse
    here refuses signs, fractions and exponents), escaped surrogates and the names true, false and null are
    refused as well. The server writes none of these. *)
From Coq Require Import String.
From Verif Require Export Page.
Local Open Scope list_scope.

(** ** Writing *)
(** serde_json ser.rs: ESCAPE, format_escaped_str_contents, CharEscape *)
Definition low_digit (n : N) : N := if N.ltb n 10 then (48 + n)%N else (87 + n)%N.
Definition json_escape (c : N) : text :=
  if N.eqb c 34 then [92; 34]%N else if N.eqb c 92 then [92; 92]%N
  else if N.eqb c 8 then [92; 98]%N else if N.eqb c 9 then [92; 116]%N else if N.eqb c 10 then [92; 110]%N
  else if N.eqb c 12 then [92; 102]%N else if N.eqb c 13 then [92; 114]%N
  else if N.ltb c 32 then [92; 117; 48; 48; low_digit (c / 16); low_digit (c mod 16)]%N
  else [c].
Definition write_string (t : text) : text := 34%N :: flat_map json_escape t ++ [34%N].
(** itoa *)
Definition write_number (n : N) : text := digits_from (S (N.to_nat (N.size n))) n [].
(** words.rs:153-162: tranche and chars are skipped *)
Definition write_word (w : word) : text :=
  str "{" ++ write_string (str "text") ++ str ":" ++ write_string (w_text w) ++ str "," ++ write_string (str "score") ++ str ":" ++ write_number (w_score w) ++ str "}".
Fixpoint write_words (ws : list word) : text :=
  match ws with [] => [] | [w] => write_word w | w :: ws' => write_word w ++ str "," ++ write_words ws' end.
(** main.rs:66-72: externally tagged, snake_case *)
Inductive wire := Status (t : text) | Log (message : text) | Match (phrase : list word).
Definition write (r : wire) : text :=
  match r with
  | Status t => str "{" ++ write_string (str "status") ++ str ":" ++ write_string t ++ str "}"
  | Log t => str "{" ++ write_string (str "log") ++ str ":{" ++ write_string (str "message") ++ str ":" ++ write_string t ++ str "}}"
  | Match p => str "{" ++ write_string (str "match") ++ str ":{" ++ write_string (str "phrase") ++ str ":[" ++ write_words p ++ str "]}}"
  end.
(** main.rs:74-77 *)
Definition flatten_phrase (p : list word) : text := write (Match p).

(** ** Reading *)
Inductive json := JString (t : text) | JNumber (n : N) | JArray (vs : list json) | JObject (fs : list (text * json)).
Definition json_space (c : N) : bool := N.eqb c 32 || N.eqb c 9 || N.eqb c 10 || N.eqb c 13.
Fixpoint skip_space (t : text) : text := match t with c :: t' => if json_space c then skip_space t' else t | [] => [] end.
Definition digit_value (c : N) : option N :=
  if (N.leb 48 c && N.leb c 57)%bool then Some (c - 48)%N
  else if (N.leb 65 c && N.leb c 70)%bool then Some (c - 55)%N
  else if (N.leb 97 c && N.leb c 102)%bool then Some (c - 87)%N else None.
Definition short_escape (c : N) : option N :=
  if N.eqb c 34 then Some 34%N else if N.eqb c 92 then Some 92%N else if N.eqb c 47 then Some 47%N
  else if N.eqb c 98 then Some 8%N else if N.eqb c 102 then Some 12%N else if N.eqb c 110 then Some 10%N
  else if N.eqb c 114 then Some 13%N else if N.eqb c 116 then Some 9%N else None.
Definition four_digits (a b c d : N) : option N :=
  match digit_value a, digit_value b, digit_value c, digit_value d with
  | Some a, Some b, Some c, Some d =>
      let n := (((a * 16 + b) * 16 + c) * 16 + d)%N in if (N.leb 55296 n && N.leb n 57343)%bool then None else Some n
  | _, _, _, _ => None
  end.
Definition and_then {A} (c : N) (o : option (text * A)) : option (text * A) := match o with Some (t, r) => Some (c :: t, r) | None => None end.
(** after the opening quote *)
Fixpoint read_string (t : text) : option (text * text) :=
  match t with
  | [] => None
  | c :: t1 =>
      if N.eqb c 34 then Some ([], t1)
      else if N.eqb c 92 then
        match t1 with
        | [] => None
        | e :: t2 =>
            if N.eqb e 117 then
              match t2 with
              | a :: b :: x :: y :: t3 => match four_digits a b x y with Some v => and_then v (read_string t3) | None => None end
              | _ => None
              end
            else match short_escape e with Some v => and_then v (read_string t2) | None => None end
        end
      else if N.ltb c 32 then None
      else and_then c (read_string t1)
  end.
Fixpoint read_digits (n : N) (t : text) : N * text :=
  match t with c :: t' => if (N.leb 48 c && N.leb c 57)%bool then read_digits (n * 10 + (c - 48)) t' else (n, t) | [] => (n, t) end.
Definition read_number (c : N) (t : text) : N * text := if N.eqb c 48 then (0%N, t) else read_digits (c - 48) t.
Fixpoint read_json (f : nat) (t : text) : option (json * text) :=
  match f with
  | 0 => None
  | S f' =>
      match skip_space t with
      | [] => None
      | c :: t1 =>
          if N.eqb c 34 then match read_string t1 with Some (s, r) => Some (JString s, r) | None => None end
          else if (N.leb 48 c && N.leb c 57)%bool then let (n, r) := read_number c t1 in Some (JNumber n, r)
          else if N.eqb c 91 then
            match skip_space t1 with
            | e :: r => if N.eqb e 93 then Some (JArray [], r) else match read_items f' t1 with Some (vs, r) => Some (JArray vs, r) | None => None end
            | [] => None
            end
          else if N.eqb c 123 then
            match skip_space t1 with
            | e :: r => if N.eqb e 125 then Some (JObject [], r) else match read_members f' t1 with Some (fs, r) => Some (JObject fs, r) | None => None end
            | [] => None
            end
          else None
      end
  end
with read_items (f : nat) (t : text) : option (list json * text) :=
  match f with
  | 0 => None
  | S f' =>
      match read_json f' t with
      | None => None
      | Some (v, t1) =>
          match skip_space t1 with
          | e :: t2 => if N.eqb e 93 then Some ([v], t2)
                       else if N.eqb e 44 then match read_items f' t2 with Some (vs, r) => Some (v :: vs, r) | None => None end
                       else None
          | [] => None
          end
      end
  end
with read_members (f : nat) (t : text) : option (list (text * json) * text) :=
  match f with
  | 0 => None
  | S f' =>
      match skip_space t with
      | [] => None
      | q :: t0 =>
          if N.eqb q 34 then
            match read_string t0 with
            | None => None
            | Some (name, t1) =>
                match skip_space t1 with
                | [] => None
                | s :: t2 =>
                    if N.eqb s 58 then
                      match read_json f' t2 with
                      | None => None
                      | Some (v, t3) =>
                          match skip_space t3 with
                          | e :: t4 => if N.eqb e 125 then Some ([(name, v)], t4)
                                       else if N.eqb e 44 then match read_members f' t4 with Some (fs, r) => Some ((name, v) :: fs, r) | None => None end
                                       else None
                          | [] => None
                          end
                      end
                    else None
                end
            end
          else None
      end
  end.
(** None: a SyntaxError *)
Definition json_parse (t : text) : option json :=
  match read_json (length t) t with Some (v, r) => match skip_space r with [] => Some v | _ => None end | None => None end.

(** ** What the page makes of it *)
(** a property of an object; the last one of that name *)
Fixpoint property_of (name : text) (fs : list (text * json)) : option json :=
  match fs with
  | [] => None
  | (k, v) :: fs' => match property_of name fs' with Some v' => Some v' | None => if text_eqb k name then Some v else None end
  end.
Definition member_of (v : json) (name : text) : option json := match v with JObject fs => property_of name fs | _ => None end.
(** index.html:486-489: text and score of a word *)
Definition got_word (v : json) : option (text * N) :=
  match member_of v (str "text"), member_of v (str "score") with Some (JString t), Some (JNumber n) => Some (t, n) | _, _ => None end.
Fixpoint got_words (vs : list json) : option (list (text * N)) :=
  match vs with
  | [] => Some []
  | v :: vs' => match got_word v, got_words vs' with Some w, Some ws => Some (w :: ws) | _, _ => None end
  end.
Inductive got := GotStatus (t : text) | GotLog (t : text) | GotMatch (ws : list (text * N)).
(** index.html:470-487: the status is not empty, or it does not count as one *)
Definition onmessage (data : text) : option got :=
  match json_parse data with
  | None => None
  | Some v =>
      match member_of v (str "status") with
      | Some (JString (c :: t)) => Some (GotStatus (c :: t))
      | _ =>
          match member_of v (str "log") with
          | Some l => match member_of l (str "message") with Some (JString t) => Some (GotLog t) | _ => None end
          | None =>
              match member_of v (str "match") with
              | Some m => match member_of m (str "phrase") with Some (JArray vs) => match got_words vs with Some ws => Some (GotMatch ws) | None => None end | _ => None end
              | None => None
              end
          end
      end
  end.
