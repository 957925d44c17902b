(** Property C41: printing an expression and parsing it again (parser.rs:88-102, 390-472, words.rs:59-64,
    127-151, and the grammar). See PropParser for what goes wrong. *)
From Coq Require Import String.
From Verif Require Import PrintProofs PropSyntax.
From Verif Require Import Syntax Printable.
Local Open Scope list_scope.

(** Whatever was parsed can be printed. *)
Theorem C41_printing_never_fails : forall t e, parse_expr_text t = Ok (Parsed e) -> exists s, show_expr e = Ok s.
Proof. exact parsed_shows. Qed.
Print Assumptions C41_printing_never_fails.

(** What is printed for a parsed expression is an expression again, with the same language and the
    same options, and is printed in the same way again. Missing: the expressions that [printable]
    rules out, for which it is false (see PropParser); and equality of the expressions, which is
    false too. *)
Theorem C41_parsed_round_trip_partial : forall s e, parse_expr_text s = Ok (Parsed e) -> printable (root e) = true ->
  exists t e', show_expr e = Ok t /\ parse_expr_text t = Ok (Parsed e') /\
  (forall w, denotes (root e') w <-> denotes (root e) w) /\ options e' = options e /\ show_expr e' = Ok t.
Proof. exact parsed_round_trip. Qed.
Print Assumptions C41_parsed_round_trip_partial.

(** The same for any expression, wherever it comes from. *)
Theorem C41_round_trip_partial : forall e, printable (root e) = true -> options_noted e ->
  exists t e', show_expr e = Ok t /\ parse_expr_text t = Ok (Parsed e') /\
  (forall w, denotes (root e') w <-> denotes (root e) w) /\ options e' = options e /\ show_expr e' = Ok t.
Proof. exact round_trip. Qed.
Print Assumptions C41_round_trip_partial.

(** The same for written patterns: the text that is printed still means what the pattern means. *)
Theorem C41_written_round_trip_partial : forall bs rs s, writes_expression bs rs s -> reprints (Group bs) ->
  exists e t e', parse_expr_text s = Ok (Parsed e) /\ show_expr e = Ok t /\ parse_expr_text t = Ok (Parsed e') /\
  (forall w, denotes (root e') w <-> means (Group bs) w) /\ options_asked bs rs (options e') /\ show_expr e' = Ok t.
Proof. exact written_round_trip. Qed.
Print Assumptions C41_written_round_trip_partial.

(** [ (c[au-x]t |<dog-1>3){2,3} .?|(_ [^b]:+) !_ !2], see [C57_pattern_written]. *)
Example C41_witness : reprints (Group example_pattern) /\
  exists e, parse_expr_text (str " (c[au-x]t |<dog-1>3){2,3} .?|(_ [^b]:+) !_ !2") = Ok (Parsed e) /\ printable (root e) = true /\
  show_expr e = Ok (str "((((c[auvwx]t)|(<dog-1>(.{3}_))){2,3}.?)|([a-z_']*_[a-z_']*[acdefghijklmnopqrstuvwxyz][a-z_']*)) !_ !' !2").
Proof.
  split.
  - cbn [reprints example_pattern sy repeats]. repeat split.
    + exists [0]. exists 0. split; [reflexivity|]. exists (Single 97%N). split; [left; reflexivity|reflexivity].
    + exists [0]. exists 0. split; [reflexivity|]. split; [unfold letter; lia|]. intros (i & [<-|[]] & H). cbn [item_covers] in H. discriminate H.
  - eexists. split; [vm_compute; reflexivity|]. split; vm_compute; reflexivity.
Qed.
