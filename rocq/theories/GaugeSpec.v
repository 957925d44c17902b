(** Specification for the number in the first status of a session: which requests and sessions it stands for. *)
From Verif Require Export Gauge.

(** What number [i] has done so far *)
Definition done_by (i : nat) (h : list (nat * effect)) : list effect := map snd (filter (fun x => fst x =? i) h).
(** A history of a server: each of [acts] has done a part of its trace, or all of it; nobody else does anything. *)
Definition history (s : server) (acts : list activity) (h : list (nat * effect)) : Prop :=
  (forall i e, In (i, e) h -> i < length acts) /\
  (forall i a, nth_error acts i = Some a -> exists later, trace s a = done_by i h ++ later).
(** A query of number [i] has begun *)
Definition begun (i : nat) (h : list (nat * effect)) : Prop := In (i, ActiveAdd) h.
(** There is more to come *)
Definition still_running (s : server) (acts : list activity) (i : nat) (h : list (nat * effect)) : Prop :=
  exists a e later, nth_error acts i = Some a /\ trace s a = done_by i h ++ e :: later.
(** It is over, and it did not end regularly: it failed or panicked *)
Definition broken_off (s : server) (acts : list activity) (i : nat) (h : list (nat * effect)) : Prop :=
  exists a, nth_error acts i = Some a /\ trace s a = done_by i h /\ regular s a = false.
