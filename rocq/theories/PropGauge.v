(** Property C85: the number in the first status of a session. *)
From Coq Require Import String NArith.
From Verif Require Import GaugeProofs.
Local Open Scope list_scope.

(** In every history of a server the first status of a session gives the number of the other requests and sessions
    that had begun before its own query was counted and were still running then, together with those that had
    failed or panicked by then. *)
Theorem C85_number : forall s acts h i t, (N.of_nat (length acts) < 2 ^ 64)%N -> history s acts h -> In (i, t) (statuses h) ->
  exists before after others, h = before ++ (i, ActiveAdd) :: after /\ NoDup others /\
    (forall j, In j others <-> j <> i /\ begun j before /\ (still_running s acts j before \/ broken_off s acts j before)) /\
    t = str "Running query (" ++ show_nat (length others) ++ str " other(s) active)...".
Proof. exact status_number. Qed.
Print Assumptions C85_number.
(** So if none fails, it is the number of the others that are running. *)
Theorem C85_if_regular : forall s acts h i t, (N.of_nat (length acts) < 2 ^ 64)%N -> history s acts h -> Forall (fun a => regular s a = true) acts -> In (i, t) (statuses h) ->
  exists before after others, h = before ++ (i, ActiveAdd) :: after /\ NoDup others /\
    (forall j, In j others <-> j <> i /\ begun j before /\ still_running s acts j before) /\
    t = str "Running query (" ++ show_nat (length others) ++ str " other(s) active)...".
Proof. exact regular_number. Qed.
Print Assumptions C85_if_regular.
(** Every such message has its number. *)
Theorem C85_told : forall h i, In (i, Sent SRunning) h -> exists t, In (i, t) (statuses h).
Proof. exact status_told. Qed.
Print Assumptions C85_told.
(** As stated it is false: a session is told of another one although no other runs; all messages arrived, the
    first session was ended by a parse error. *)
Theorem C85_stale_refuted : forall s, exists acts h t, N.of_nat (length acts) = 2%N /\ history s acts h /\ In (1, t) (statuses h) /\ t = running_text 1 /\
  forall j, j <> 1 -> ~ still_running s acts j h.
Proof. exact stale_number. Qed.
Print Assumptions C85_stale_refuted.
(** A request and a session at the same time *)
Example C85_met : forall s d q1 q2, exists h, history s [Http d q1 false; Socket (mkClient (Some (Some q2)) (fun _ => true) (fun _ => false) (fun _ => false) (fun _ => None))] h /\
  In (1, str "Running query (1 other(s) active)...") (statuses h).
Proof. exact two_at_once. Qed.
