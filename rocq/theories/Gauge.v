(** Model of the gauge of active queries while requests and sessions run at the same time, and of the first
    status of a session, which quotes it (noodle-webapp/src/main.rs:60, 158, 204, 229-234, 309).

    A history is the order in which the steps of all requests and sessions take effect, each with the number of its
    request or session. Every access to the gauge is a [fetch_add] or [fetch_sub], so the order in which they
    change it is one order even with [Relaxed]; [load] (main.rs:94) is not part of this file. *)
From Coq Require Import String.
From Verif Require Export AppsSpec.
Local Open Scope list_scope.

(** AtomicUsize::fetch_add(1), fetch_sub(1): they wrap *)
Definition fetch_add (g : N) : N := ((g + 1) mod 2 ^ 64)%N.
Definition fetch_sub (g : N) : N := ((g + (2 ^ 64 - 1)) mod 2 ^ 64)%N.
(** main.rs:231-234: the status *)
Definition running_text (others : nat) : text := str "Running query (" ++ show_nat others ++ str " other(s) active)...".
(** main.rs:229: [n_active], one for every session *)
Definition remember (own : nat -> N) (i : nat) (g : N) (j : nat) : N := if j =? i then g else own j.
(** The first statuses that are sent, with the number of the session; [g] is the gauge. *)
Fixpoint statuses_from (g : N) (own : nat -> N) (h : list (nat * effect)) : list (nat * text) :=
  match h with
  | [] => []
  | (i, ActiveAdd) :: h' => statuses_from (fetch_add g) (remember own i g) h'
  | (i, ActiveSub) :: h' => statuses_from (fetch_sub g) own h'
  | (i, Sent SRunning) :: h' => (i, running_text (N.to_nat (own i))) :: statuses_from g own h'
  | _ :: h' => statuses_from g own h'
  end.
(** main.rs:60: the gauge is 0 when the server starts *)
Definition statuses (h : list (nat * effect)) : list (nat * text) := statuses_from 0 (fun _ => 0%N) h.
