(** Model of the page: the script of noodle-webapp/static/index.html (lines 391-623), as far as it
    composes the query, keeps the matches and shows them; and of the two bodies the server writes about itself
    (noodle-webapp/src/main.rs 78-110, 130-144).

    Simplifications: elements of the page are the values they show; links, score bars, the examples
    and the feedback form are left out. A handler that throws keeps what it has changed so far. Checking a
    box or typing changes the field before the listener runs. A socket delivers messages only while it is open
    (WebSocket standard, readyState OPEN), so none after [close]. *)
From Coq Require Import String ZArith.
From Verif Require Export Apps.
Local Open Scope list_scope.

(** String.prototype.trim *)
Definition js_white (c : N) : bool := (is_white c && negb (N.eqb c 133)) || N.eqb c 65279.
Fixpoint js_trim_start (t : text) : text :=
  match t with c :: t' => if js_white c then js_trim_start t' else t | [] => [] end.
Definition js_trim (t : text) : text := rev (js_trim_start (rev (js_trim_start t))).

(** index.html:449-456: what is sent; the values of the form, the input field and the custom word
    list. *)
Definition input_text (wordlist max_phrase_length max_results input custom : text) : text :=
  str "#dict " ++ wordlist ++ 10%N :: str "#words " ++ max_phrase_length ++ 10%N :: str "#limit " ++ max_results ++ 10%N :: input ++
  (match custom with [] => [] | _ => 10%N :: str "#wordlist" ++ 10%N :: custom end).

(** index.html:478-499: a match with [originalOrder]. [fullText] is computed from the phrase. *)
Record hit := mkHit { hit_phrase : list word; original_order : nat }.
Definition full_text (p : list word) : text := js_trim (flat_map (fun w => w_text w ++ [32%N]) p).

(** [net_score]: the order of the floating-point numbers [netScore] (lines 486-494; none is NaN, as phrases
    are not empty), as integers. [reg_exp]: RegExp, None if the constructor throws. *)
Record browser := mkBrowser { net_score : list word -> Z; reg_exp : text -> option (text -> bool) }.

Inductive status_text := NoStatus | Connecting | Connected | FromServer (r : reply) | StoppedByUser.
Record page := mkPage {
  has_socket : bool;                 (* window.ws has been set *)
  open_socket : bool;                (* and not been closed *)
  page_matches : option (list hit);  (* window.matches; None: the empty string it is at first (line 409) *)
  output : list hit;                 (* the blocks of #output *)
  status : status_text;              (* #status *)
  log_lines_shown : list reply;      (* #log *)
  sort_checked : bool; filter_checked : bool; filter_value : text;
  custom_wordlist : text
}.
Definition blank_page : page := mkPage false false None [] NoStatus [] false false [] [].

(** Array.prototype.sort with a comparator that subtracts keys: stable, ascending *)
Fixpoint insert_by (key : hit -> Z) (h : hit) (l : list hit) : list hit :=
  match l with [] => [h] | x :: l' => if Z.leb (key h) (key x) then h :: l else x :: insert_by key h l' end.
Definition sort_by (key : hit -> Z) (l : list hit) : list hit := fold_right (insert_by key) [] l.

(** index.html:411-430 *)
Definition rebuild_output (b : browser) (p : page) : page :=
  match page_matches p with
  | None => p   (* "".sort is not a function *)
  | Some hs =>
      let key := if sort_checked p then fun h => net_score b (hit_phrase h) else fun h => Z.of_nat (original_order h) in
      let hs := sort_by key hs in
      let p := mkPage (has_socket p) (open_socket p) (Some hs) (output p) (status p) (log_lines_shown p) (sort_checked p) (filter_checked p) (filter_value p) (custom_wordlist p) in
      let show l := mkPage (has_socket p) (open_socket p) (Some hs) l (status p) (log_lines_shown p) (sort_checked p) (filter_checked p) (filter_value p) (custom_wordlist p) in
      if filter_checked p then
        match reg_exp b (filter_value p) with
        | None => p   (* new RegExp throws *)
        | Some f => show (filter (fun h => f (full_text (hit_phrase h))) hs)
        end
      else show hs
  end.
(** index.html:431-437 *)
Definition stop (p : page) : page :=
  if has_socket p then mkPage true false (page_matches p) (output p) StoppedByUser (log_lines_shown p) (sort_checked p) (filter_checked p) (filter_value p) (custom_wordlist p) else p.
(** index.html:438-460 *)
Definition submit (p : page) : page :=
  let p := stop p in
  mkPage true true (Some []) [] Connecting [] false false (filter_value p) (custom_wordlist p).
(** index.html:469-549. The server's replies are statuses, log lines and matches (main.rs:65-71). *)
Definition receive (b : browser) (r : reply) (p : page) : page :=
  match r with
  | SMatch ws =>
      let hs := match page_matches p with Some hs => hs | None => [] end in
      let h := mkHit ws (length hs) in
      let keep out sorted := mkPage (has_socket p) (open_socket p) (Some (hs ++ [h])) out (status p) (log_lines_shown p) sorted (filter_checked p) (filter_value p) (custom_wordlist p) in
      if negb (filter_checked p) then keep (output p ++ [h]) false
      else match reg_exp b (filter_value p) with
           | None => keep (output p) (sort_checked p)   (* throws *)
           | Some f => if f (full_text ws) then keep (output p ++ [h]) false else keep (output p) (sort_checked p)
           end
  | SErrorLog _ | SExpression | SLog =>
      mkPage (has_socket p) (open_socket p) (page_matches p) (output p) (status p) (log_lines_shown p ++ [r]) (sort_checked p) (filter_checked p) (filter_value p) (custom_wordlist p)
  | _ => mkPage (has_socket p) (open_socket p) (page_matches p) (output p) (FromServer r) (log_lines_shown p) (sort_checked p) (filter_checked p) (filter_value p) (custom_wordlist p)
  end.
(** index.html:575-591 *)
Definition copy_wordlist (b : browser) (p : page) : page :=
  let hs := match page_matches p with Some hs => hs | None => [] end in
  let put l := mkPage (has_socket p) (open_socket p) (page_matches p) (output p) (status p) (log_lines_shown p) (sort_checked p) (filter_checked p) (filter_value p)
    (flat_map (fun h => full_text (hit_phrase h) ++ [10%N]) l) in
  if filter_checked p then match reg_exp b (filter_value p) with None => p | Some f => put (filter (fun h => f (full_text (hit_phrase h))) hs) end
  else put hs.

(** What can happen to a page (listeners: index.html 551-555, 569-575; socket: 461-469). *)
Inductive event :=
| Submit | Stop | Opened | Message (r : reply)
| SetSort (on : bool) | SetFilter (on : bool) | TypeFilter (t : text)
| CopyWordlist | TypeWordlist (t : text).
Definition handle (b : browser) (p : page) (e : event) : page :=
  let fields s f v := mkPage (has_socket p) (open_socket p) (page_matches p) (output p) (status p) (log_lines_shown p) s f v (custom_wordlist p) in
  match e with
  | Submit => submit p
  | Stop => stop p
  | Opened => if open_socket p then mkPage true true (page_matches p) (output p) Connected (log_lines_shown p) (sort_checked p) (filter_checked p) (filter_value p) (custom_wordlist p) else p
  | Message r => if open_socket p then receive b r p else p
  | SetSort on => rebuild_output b (fields on (filter_checked p) (filter_value p))
  | SetFilter on => rebuild_output b (fields (sort_checked p) on (filter_value p))
  | TypeFilter t => rebuild_output b (fields (sort_checked p) true t)
  | CopyWordlist => copy_wordlist b p
  | TypeWordlist t => mkPage (has_socket p) (open_socket p) (page_matches p) (output p) (status p) (log_lines_shown p) (sort_checked p) (filter_checked p) (filter_value p) t
  end.
Definition after (b : browser) (es : list event) : page := fold_left (handle b) es blank_page.

(** ** The menu of wordlists *)
(** noodle-webapp/src/main.rs:130-144: the script that is the body; [lists] in the order in which the
    map is traversed *)
Definition get_wordlist_js (lists : list (text * list word)) : text :=
  str "window.WORDLISTS = [];" ++ 10%N ::
  flat_map (fun l => str "window.WORDLISTS.push({" ++ [34%N] ++ str "name" ++ [34%N] ++ str ": " ++ [34%N] ++ fst l ++ [34%N] ++ str ", " ++ [34%N] ++ str "len" ++ [34%N] ++ str ": " ++ show_nat (length (snd l)) ++ str "});" ++ [10%N]) lists.
(** index.html:608-620: the options of the menu (name and length), longest list first (a stable sort),
    and the one selected: the last one called "default", or the first one. [lists]: what the script
    above has pushed. *)
Fixpoint insert_longer (x : text * nat) (l : list (text * nat)) : list (text * nat) :=
  match l with [] => [x] | y :: l' => if Nat.leb (snd y) (snd x) then x :: l else y :: insert_longer x l' end.
Definition menu (lists : list (text * nat)) : list (text * nat) := fold_right insert_longer [] lists.
Definition option_text (x : text * nat) : text := fst x ++ str " (" ++ show_nat (snd x) ++ str ")".
Definition selected (lists : list (text * nat)) : option text :=
  match filter (fun x => text_eqb (fst x) (str "default")) (menu lists) with
  | [] => option_map fst (hd_error (menu lists))
  | x :: l => Some (fst (last l x))
  end.

(** ** noodle-webapp/src/main.rs:78-110: the body of /metrics *)
Definition get_metrics (active total : nat) (lists : list (text * list word)) : text :=
  str "# HELP noodle_queries_active" ++ 10%N :: str "# TYPE noodle_queries_active gauge" ++ 10%N :: str "noodle_queries_active " ++ show_nat active ++ 10%N ::
  10%N :: str "# HELP noodle_queries_total" ++ 10%N :: str "# TYPE noodle_queries_total counter" ++ 10%N :: str "noodle_queries_total " ++ show_nat total ++ 10%N ::
  10%N :: str "# HELP noodle_wordlist_size" ++ 10%N :: str "# TYPE noodle_wordlist_size gauge" ++ 10%N ::
  flat_map (fun l => str "noodle_wordlist_size{wordlist=" ++ [34%N] ++ fst l ++ [34%N] ++ str "} " ++ show_nat (length (snd l)) ++ [10%N]) lists.
