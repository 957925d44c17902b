(** Model of noodle/src/bitset.rs: multi-dimensional bitsets in one allocation of u32 blocks.
    Simplifications: references and borrows are values ([slice_mut] becomes a function that
    rewrites one range of the block list); [debug_assert!]s on block counts are compiled out in
    release builds, so a mismatch is modelled as the unchecked access it guards ([UB]). *)
From Verif Require Export Base.

(** bitset.rs:111-112 *)
Notation block := N (only parsing).
Definition BLOCK_BITS : nat := 32.

(** bitset.rs:114-116 *)
Definition div_rem (x d : nat) : nat * nat := (x / d, x mod d).

(** bitset.rs:35-41 trait Index. [slice_range size sub len]: start and end of the range of blocks
    ([len], the number of blocks, is only used by the full range of [()]). *)
Class Index (I : Type) := {
  total_size : I -> nat;
  transpose : I -> nat -> I;
  slice_range : I -> I -> nat -> nat * nat
}.

(** bitset.rs:43-53 *)
#[export] Instance Index_unit : Index unit := {|
  total_size := fun _ => 1;
  transpose := fun _ _ => tt;
  slice_range := fun _ _ len => (0, len)
|}.

(** bitset.rs:55-67 *)
#[export] Instance Index_usize : Index nat := {|
  total_size := fun s => s;
  transpose := fun _ x => x;
  slice_range := fun s sub _ => (s * sub, s * (sub + 1))
|}.

(** bitset.rs:69-82 *)
#[export] Instance Index_pair : Index (nat * nat) := {|
  total_size := fun s => fst s * snd s;
  transpose := fun s x => (snd s, x);
  slice_range := fun s sub _ =>
    let start := snd s * (fst s * fst sub + snd sub) in (start, start + snd s)
|}.

(** bitset.rs:118-122 (also BitSetRef and BitSetRefMut, 265-269 and 312-316) *)
Record bitset (I : Type) := mkBitset { blocks : list block; size : I }.
Arguments mkBitset {I} _ _.
Arguments blocks {I} _.
Arguments size {I} _.

(** bitset.rs:125-134 *)
Definition block_count (inner_size : nat) : nat :=
  let '(q, r) := div_rem inner_size BLOCK_BITS in
  q + (if 0 <? r then 1 else 0).

Definition bitset_new {I} `{Index I} (outer_size : I) (inner_size : nat) : bitset I :=
  let block_size := block_count inner_size in
  {| blocks := repeat 0%N (total_size outer_size * block_size);
     size := transpose outer_size block_size |}.

(** [slice::get_unchecked(range)] *)
Definition get_range (bs : list block) (r : nat * nat) : outcome (list block) :=
  let '(s, e) := r in
  if (s <=? e) && (e <=? length bs) then Ok (firstn (e - s) (skipn s bs)) else UB.

(** Write a range back (the value of the place borrowed by [get_unchecked_mut]). *)
Definition put_range (bs : list block) (r : nat * nat) (row : list block) : list block :=
  firstn (fst r) bs ++ row ++ skipn (snd r) bs.

(** bitset.rs:136-140 *)
Definition slice {I} `{Index I} (b : bitset I) (idx : I) : outcome (list block) :=
  get_range (blocks b) (slice_range (size b) idx (length (blocks b))).

(** bitset.rs:142-146; [f] is what the caller does with the mutable row *)
Definition slice_mut {I} `{Index I} (b : bitset I) (idx : I)
    (f : list block -> outcome (list block)) : outcome (bitset I) :=
  let r := slice_range (size b) idx (length (blocks b)) in
  do row <- get_range (blocks b) r;
  do row' <- f row;
  Ok {| blocks := put_range (blocks b) r row'; size := size b |}.

(** bitset.rs:208-215 *)
Definition slice2d (b : bitset (nat * nat)) (index : nat) : outcome (bitset nat) :=
  do bs <- get_range (blocks b) (total_size (size b) * index, total_size (size b) * (index + 1));
  Ok {| blocks := bs; size := snd (size b) |}.

(** bitset.rs:216-223 *)
Definition slice2d_mut (b : bitset (nat * nat)) (index : nat)
    (f : bitset nat -> outcome (bitset nat)) : outcome (bitset (nat * nat)) :=
  let r := (total_size (size b) * index, total_size (size b) * (index + 1)) in
  do bs <- get_range (blocks b) r;
  do row <- f {| blocks := bs; size := snd (size b) |};
  Ok {| blocks := put_range (blocks b) r (blocks row); size := size b |}.

(** u32 complement *)
Definition not32 (x : N) : N := N.lxor x (N.ones 32).

(** bitset.rs:272-274 and 326-328 *)
Definition is_empty (bs : list block) : bool := forallb (fun x => N.eqb x 0) bs.

(** bitset.rs:275-279 and 329-333 *)
Definition contains (bs : list block) (index : nat) : outcome bool :=
  let '(b, bit) := div_rem index BLOCK_BITS in
  match nth_error bs b with
  | Some x => Ok (negb (N.eqb (N.land x (N.shiftl 1 (N.of_nat bit))) 0))
  | None => UB
  end.

(** bitset.rs:280-286 *)
Definition is_subset (xs ys : list block) : bool :=
  forallb (fun p => N.eqb (N.lor (fst p) (snd p)) (snd p)) (combine xs ys).

(** bitset.rs:341-345 *)
Definition remove (bs : list block) (index : nat) : outcome (list block) :=
  let '(b, bit) := div_rem index BLOCK_BITS in
  match nth_error bs b with
  | Some x => Ok (upd bs b (N.land x (not32 (N.shiftl 1 (N.of_nat bit)))))
  | None => UB
  end.

(** bitset.rs:346-350 *)
Definition insert (bs : list block) (index : nat) : outcome (list block) :=
  let '(b, bit) := div_rem index BLOCK_BITS in
  match nth_error bs b with
  | Some x => Ok (upd bs b (N.lor x (N.shiftl 1 (N.of_nat bit))))
  | None => UB
  end.

(** bitset.rs:351-353 *)
Definition clear (bs : list block) : list block := map (fun _ => 0%N) bs.

(** Pointwise loop over the blocks of [other] (bitset.rs:360-377): the accesses to [self] are
    unchecked, the blocks of [self] beyond [other] keep their value. *)
Fixpoint zip_blocks (f : N -> N -> N) (self other : list block) : outcome (list block) :=
  match other, self with
  | [], _ => Ok self
  | _ :: _, [] => UB
  | y :: other', x :: self' => do r <- zip_blocks f self' other'; Ok (f x y :: r)
  end.

(** bitset.rs:360-365 *)
Definition union_with := zip_blocks N.lor.
(** bitset.rs:366-371 *)
Definition difference_with := zip_blocks (fun x y => N.land x (not32 y)).
(** bitset.rs:372-377 *)
Definition intersect_with := zip_blocks N.land.

(** bitset.rs:354-359 (BitSetRefMut::is_subset) *)
Fixpoint is_subset_mut (self other : list block) : outcome bool :=
  match other, self with
  | [], _ => Ok true
  | _ :: _, [] => UB
  | y :: other', x :: self' =>
      if N.eqb (N.land x (not32 y)) 0 then is_subset_mut self' other' else Ok false
  end.

(** bitset.rs:378-383: loops over the blocks of [self] *)
Fixpoint copy_from (self other : list block) : outcome (list block) :=
  match self, other with
  | [], _ => Ok []
  | _ :: _, [] => UB
  | _ :: self', y :: other' => do r <- copy_from self' other'; Ok (y :: r)
  end.

(** Derived [PartialEq] on equally sized rows: equality of the blocks (bitset.rs:265, 118). *)
Fixpoint blocks_eqb (xs ys : list block) : bool :=
  match xs, ys with
  | [], [] => true
  | x :: xs', y :: ys' => N.eqb x y && blocks_eqb xs' ys'
  | _, _ => false
  end.

(** u32::trailing_zeros, of a non-zero block *)
Fixpoint pos_trailing_zeros (p : positive) : nat :=
  match p with
  | xO q => S (pos_trailing_zeros q)
  | _ => 0
  end.
Definition trailing_zeros (x : N) : nat :=
  match x with
  | N0 => 32
  | Npos p => pos_trailing_zeros p
  end.

(** bitset.rs:406-410 *)
Record ones_iter := mkOnes { o_block : N; o_offset : nat; o_remaining : list block }.

(** bitset.rs:287-293; indexing [self.blocks[0]] is checked *)
Definition ones_start (bs : list block) : outcome ones_iter :=
  match bs with
  | [] => Panic
  | b :: r => Ok {| o_block := b; o_offset := 0; o_remaining := r |}
  end.

(** bitset.rs:416-423: skip zero blocks *)
Fixpoint ones_skip (blk : N) (offset : nat) (remaining : list block) : option ones_iter :=
  if N.eqb blk 0 then
    match remaining with
    | [] => None
    | b :: r => ones_skip b (offset + BLOCK_BITS) r
    end
  else Some {| o_block := blk; o_offset := offset; o_remaining := remaining |}.

(** bitset.rs:415-429 Iterator::next *)
Definition ones_next (it : ones_iter) : option (nat * ones_iter) :=
  match ones_skip (o_block it) (o_offset it) (o_remaining it) with
  | None => None
  | Some it' =>
      let b := o_block it' in
      let t := N.land b ((2 ^ 32 - b) mod 2 ^ 32)%N in
      let r := trailing_zeros b in
      Some (o_offset it' + r,
            {| o_block := N.lxor b t; o_offset := o_offset it'; o_remaining := o_remaining it' |})
  end.

(** [.collect()] of the iterator *)
Fixpoint ones_collect (fuel : nat) (it : ones_iter) : outcome (list nat) :=
  match fuel with
  | 0 => OutOfFuel
  | S fuel' =>
      match ones_next it with
      | None => Ok []
      | Some (x, it') => do r <- ones_collect fuel' it'; Ok (x :: r)
      end
  end.
Definition row_ones (bs : list block) : outcome (list nat) :=
  do it <- ones_start bs; ones_collect (S (BLOCK_BITS * length bs)) it.

(** bitset.rs:164-173 resize of a one-dimensional set *)
Fixpoint zip_copy (old new : list block) : list block :=
  match old, new with
  | o :: old', _ :: new' => o :: zip_copy old' new'
  | _, _ => new
  end.
Definition resize (bs : list block) (new_size : nat) : outcome (list block) :=
  do l <- row_ones bs;
  if forallb (fun x => x <? new_size) l
  then Ok (zip_copy bs (repeat 0%N (block_count new_size)))
  else Panic.

(** bitset.rs:228-240 compact_distance_set. [compact_column]: the inner loop over [j] for one [i];
    all index accesses are checked. *)
Fixpoint compact_column (bs : list block) (stride i : nat) (js : list nat) (mask : N)
  : outcome (list block) :=
  match js with
  | [] => Ok bs
  | j :: js' =>
      do b <- index bs (j * stride + i);
      let b' := N.land b (not32 mask) in
      compact_column (upd bs (j * stride + i) b') stride i js' (N.lor mask b')
  end.
Definition compact_distance_set (b : bitset (nat * nat)) (idx : nat)
  : outcome (bitset (nat * nat)) :=
  let r := (fst (size b) * idx, fst (size b) * (idx + 1)) in
  if snd r <=? length (blocks b) then
    do bs <- get_range (blocks b) r;
    if snd (size b) =? 0 then Panic (* division by zero *)
    else
      let stride := length bs / snd (size b) in
      do bs' <- foldM (fun bs i => compact_column bs stride i (seq 0 (snd (size b))) 0%N)
                      (seq 0 stride) bs;
      Ok {| blocks := put_range (blocks b) r bs'; size := size b |}
  else Panic.
