(** Specification side for bitset.rs: a bitset of outer size (a, b) and inner size n is a family of
    a*b subsets of [0, n). A program is a list of row operations; [conc_run] executes it with the
    modelled Rust functions, [abs_run] on plain characteristic functions. *)
From Verif Require Import Base Bitset.

(** The argument sets of binary operations are one-dimensional bitsets built with the public API:
    [BitSet1D::new((), n)] followed by inserts. *)
Inductive row_op :=
| RInsert (z : nat)
| RRemove (z : nat)
| RClear
| RUnion (other : list nat)
| RIntersect (other : list nat)
| RDifference (other : list nat)
| RCopy (other : list nat).

Definition set := nat -> bool.
Definition member_of (l : list nat) : set := fun z => existsb (Nat.eqb z) l.

Definition abs_op (o : row_op) (s : set) : set :=
  match o with
  | RInsert z0 => fun z => (z =? z0) || s z
  | RRemove z0 => fun z => negb (z =? z0) && s z
  | RClear => fun _ => false
  | RUnion l => fun z => s z || member_of l z
  | RIntersect l => fun z => s z && member_of l z
  | RDifference l => fun z => s z && negb (member_of l z)
  | RCopy l => member_of l
  end.

Definition abs_state := nat -> nat -> set.
Definition abs_step (A : abs_state) (p : nat * nat * row_op) : abs_state :=
  let '(x0, y0, o) := p in
  fun x y => if (x =? x0) && (y =? y0) then abs_op o (A x y) else A x y.
Definition abs_run (ps : list (nat * nat * row_op)) : abs_state :=
  fold_left abs_step ps (fun _ _ _ => false).

(** [row_of n l]: [let mut s = BitSet1D::new((), n); for z in l { s.insert(z) }] *)
Definition row_of (n : nat) (l : list nat) : outcome (list block) :=
  foldM insert l (blocks (bitset_new tt n)).

Definition conc_op (n : nat) (o : row_op) (row : list block) : outcome (list block) :=
  match o with
  | RInsert z => insert row z
  | RRemove z => remove row z
  | RClear => Ok (clear row)
  | RUnion l => do s <- row_of n l; union_with row s
  | RIntersect l => do s <- row_of n l; intersect_with row s
  | RDifference l => do s <- row_of n l; difference_with row s
  | RCopy l => do s <- row_of n l; copy_from row s
  end.
Definition conc_step (n : nat) (B : bitset (nat * nat)) (p : nat * nat * row_op)
  : outcome (bitset (nat * nat)) :=
  let '(x, y, o) := p in slice_mut B (x, y) (conc_op n o).
(** The same step through the two-dimensional views: [slice2d_mut(x).slice_mut(y)]. *)
Definition conc_step2 (n : nat) (B : bitset (nat * nat)) (p : nat * nat * row_op)
  : outcome (bitset (nat * nat)) :=
  let '(x, y, o) := p in slice2d_mut B x (fun r => slice_mut r y (conc_op n o)).

(** Programs whose indices are in range. *)
Definition op_in_range (n : nat) (o : row_op) : Prop :=
  match o with
  | RInsert z | RRemove z => z < n
  | RClear => True
  | RUnion l | RIntersect l | RDifference l | RCopy l => Forall (fun z => z < n) l
  end.
Definition prog_in_range (a b n : nat) (ps : list (nat * nat * row_op)) : Prop :=
  Forall (fun p => let '(x, y, o) := p in x < a /\ y < b /\ op_in_range n o) ps.

(** Two-dimensional sets ([BitSet2D::new(a, n)]) and one-dimensional ones ([BitSet1D::new((), n)]):
    the same programs over a family of [a] sets, and over one set. *)
Definition conc_step_2d (n : nat) (B : bitset nat) (p : nat * row_op) : outcome (bitset nat) :=
  slice_mut B (fst p) (conc_op n (snd p)).
Definition conc_step_1d (n : nat) (B : bitset unit) (o : row_op) : outcome (bitset unit) :=
  slice_mut B tt (conc_op n o).
Definition abs_run_2d (ps : list (nat * row_op)) : nat -> set :=
  fold_left (fun A p => fun x => if x =? fst p then abs_op (snd p) (A x) else A x) ps (fun _ _ => false).
Definition abs_run_1d (os : list row_op) : set := fold_left (fun s o => abs_op o s) os (fun _ => false).

(** What compact_distance_set compares: the number of the block of 32 elements that holds an element,
    counted through the whole set with [c] blocks in a row; and when one element makes another one
    disappear. *)
Definition block_of (b c x y z : nat) : nat := c * (b * x + y) + z / 32.
Definition hides (b c idx : nat) (x' y' z' x y z : nat) : Prop :=
  let first := b * idx in
  let stride := b / c in
  let p' := block_of b c x' y' z' in
  let p := block_of b c x y z in
  first <= p' /\ p' < p /\ p < first + c * stride /\ (p - p') mod stride = 0 /\ z' mod 32 = z mod 32.
