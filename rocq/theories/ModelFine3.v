(** ModelFine3.v - copy_p and add_p at the granularity of single memory
    accesses, cf. ModelCgw. *)
From Verif Require Import Base ModelSir ModelArr ModelSmp ModelCgw ModelFine.

Section Copy.
  Context {N : Num}.
  Local Open Scope num_scope.
  Local Notation buf := (list N).
  (** extra_src/oct_copy_p.cc 86-105, oct_add_p.cc 85-108: one iteration, the
      accesses to A relative to column n. Simplification: memcpy stores the
      doubles one after another; A and B are different arrays. *)
  Definition p_copy_point (f : pfun) (A_M B_M r k len : Z) (B : buf) (n : Z) : prog N SIRError :=
    pdo _ <- (match f with
      | PCopy =>
        if (len <? 0)%Z then Fail UB_oob_read else
        pfor len (fun l _ => pdo b <- pure (buf_get B (0 + n * B_M + l)%Z); Write (r + k * A_M + l)%Z b (Done tt)) tt
      | PAdd =>
        pfor len (fun l _ => pdo b <- pure (buf_get B (l + n * B_M)%Z);
          Read (r + k * A_M + l)%Z (fun v => Write (r + k * A_M + l)%Z (v + b) (Done tt))) tt
      end);
    Done err_none.
End Copy.
