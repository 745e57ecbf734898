(** * PropMemory: where the expansions lie in memory does not show. *)

From Coq Require Import List NArith ZArith Bool.
From Verif Require Import Base Event Macros Spans Parser Memory Api MemoryRun.
Import ListNotations.
Open Scope N_scope.

(** ** C79: addresses *)

(** The code finds the expansion a text belongs to by comparing addresses. Wherever
    an allocator puts the input and the expansions, if no two share a byte and no
    expansion begins where an older text ends, the items up to and including the
    first error, its kind and its context, are those of the parser that knows the
    expansion of every text; without an error all items are, and so is the end. *)
Theorem C79_addresses : forall al z n input l o q, keeps_apart al -> run n (new_parser input) = (l, o, q) ->
  upto_error (fst (run_input_at al z n input)) = upto_error l /\ (error_free l -> run_input_at al z n input = (l, o)).
Proof. exact addresses_same. Qed.
Print Assumptions C79_addresses.

(** The placements of two allocators are not told apart. *)
Theorem C79_placements : forall al al' z z' n input, keeps_apart al -> keeps_apart al' ->
  upto_error (fst (run_input_at al z n input)) = upto_error (fst (run_input_at al' z' n input)).
Proof. exact placements_same. Qed.
Print Assumptions C79_placements.

(** An allocator that goes downward, each text touching the one before, is such an
    allocator. *)
Theorem C79_downward : keeps_apart downward.
Proof. exact downward_apart. Qed.
Print Assumptions C79_downward.

(** An expansion that begins where an older text ends is taken for the end of the
    older text: the error of this text then has another context. *)
Theorem C79_condition_needed : exists al z n input l o q, run n (new_parser input) = (l, o, q) /\
  upto_error (fst (run_input_at al z n input)) <> upto_error l.
Proof. exact upward_differs. Qed.
Print Assumptions C79_condition_needed.

(** The text of the last theorem has two expansions, one inside the other, and then
    an error in the outer one. *)
Example C79_case : keeps_apart downward /\
  map (fun i => match i with ItError _ => true | _ => false end) (fst (run_input_at downward 5000%Z 40 shows_addresses)) = [false; false; false; true] /\
  fst (run_input_at downward 5000%Z 40 shows_addresses) = fst (fst (run 40 (new_parser shows_addresses))).
Proof. split; [exact downward_apart|]. split; [vm_compute; reflexivity|exact downward_right]. Qed.
