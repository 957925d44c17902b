(** Shared vocabulary of the model: outcomes of Rust functions and finite sets of naturals
    represented by a bit mask. Models no particular file of /repo. *)
From Coq Require Export List Arith NArith Bool Lia.
Export ListNotations.

(** Outcome of running a Rust function.
    [Panic]: assertion failure, [unwrap] on [None], checked index, [unreachable!()],
    division by zero, or integer underflow.
    [UB]: a [get_unchecked] outside of the allocation (bitset.rs).
    [OutOfFuel]: the model's recursion bound was too small (theorems exclude it). *)
Inductive outcome (A : Type) : Type :=
| Ok (a : A)
| Panic
| UB
| OutOfFuel.
Arguments Ok {A} a.
Arguments Panic {A}.
Arguments UB {A}.
Arguments OutOfFuel {A}.

Definition bind {A B} (x : outcome A) (f : A -> outcome B) : outcome B :=
  match x with
  | Ok a => f a
  | Panic => Panic
  | UB => UB
  | OutOfFuel => OutOfFuel
  end.

Declare Scope outcome_scope.
Delimit Scope outcome_scope with outcome.
Notation "'do' x <- e ; f" := (bind e (fun x => f))
  (at level 200, x pattern, e at level 100, f at level 200, right associativity) : outcome_scope.
Open Scope outcome_scope.

(** Fold and map with early failure. *)
Section monadic.
  Context {A B S : Type}.
  Variable f : S -> A -> outcome S.
  Fixpoint foldM (l : list A) (s : S) : outcome S :=
    match l with
    | [] => Ok s
    | a :: l' => do s' <- f s a; foldM l' s'
    end.
  Variable g : A -> outcome B.
  Fixpoint mapM (l : list A) : outcome (list B) :=
    match l with
    | [] => Ok []
    | a :: l' => do b <- g a; do bs <- mapM l'; Ok (b :: bs)
    end.
End monadic.

(** Checked index [v[i]]. *)
Definition index {A} (l : list A) (i : nat) : outcome A :=
  match nth_error l i with
  | Some a => Ok a
  | None => Panic
  end.

(** [usize] subtraction in a build with overflow checks. *)
Definition checked_sub (a b : nat) : outcome nat :=
  if b <=? a then Ok (a - b) else Panic.

(** Replace the [i]-th element (no effect out of range). *)
Fixpoint upd {A} (l : list A) (i : nat) (a : A) : list A :=
  match l, i with
  | [], _ => []
  | _ :: l', 0 => a :: l'
  | x :: l', S i' => x :: upd l' i' a
  end.

Definition modify {A} (l : list A) (i : nat) (f : A -> A) : outcome (list A) :=
  match nth_error l i with
  | Some a => Ok (upd l i (f a))
  | None => Panic
  end.

Fixpoint removeNth {A} (l : list A) (i : nat) : list A :=
  match l, i with
  | [], _ => []
  | _ :: l', 0 => l'
  | x :: l', S i' => x :: removeNth l' i'
  end.

(** Finite sets of naturals as bit masks. *)
Definition mem (x : N) (i : nat) : bool := N.testbit x (N.of_nat i).
Definition ins (x : N) (i : nat) : N := N.setbit x (N.of_nat i).
Definition rem (x : N) (i : nat) : N := N.clearbit x (N.of_nat i).
Definition single (i : nat) : N := ins 0%N i.
Definition subset (x y : N) : bool := N.eqb (N.lor x y) y.
(** Elements below [n], ascending. *)
Definition elems (n : nat) (x : N) : list nat := filter (mem x) (seq 0 n).
(** All elements, ascending. *)
Definition ones (x : N) : list nat := elems (N.to_nat (N.size x)) x.
Definition nunion (l : list N) : N := fold_left N.lor l 0%N.
