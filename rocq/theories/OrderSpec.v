(** The order of reported phrases, whichever of them are reported; used in a statement of PropQuery.v. *)
From Verif Require Export Answers.
From Coq Require Import Sorted.

(** [l] is [l'] with some of its members left out *)
Inductive thinned {A} : list A -> list A -> Prop :=
| thinned_nil : thinned [] []
| thinned_keep a l l' : thinned l l' -> thinned (a :: l) (a :: l')
| thinned_drop a l l' : thinned l l' -> thinned l (a :: l').
(** Phases in order of their size (then length, then tranche), for which only words of [A] count; of each phase
    some of its phrases, which are all phrases of [depth] words of the word list whose rarest word has the tranche
    of the phase, in lexicographic order of the positions of their words. *)
Definition phase_by_phase (wl : list word) (dl : nat) (ps : list (list word)) : Prop :=
  exists A q groups, (forall w, In w A -> In w wl) /\ StronglySorted phase_before q /\
    Forall (fun ph => 2 <= depth ph <= dl /\ total_size ph = search_size A ph) q /\
    Forall2 (fun ph g => thinned g (phase_results (fun _ => true) wl ph)) q groups /\
    ps = concat groups.
