(** Commands with pipes (C58). *)
From Verif Require Import Base Model.Int Model.Str Model.Pipes Spec.Url.
Local Open Scope Z_scope.

Definition prefix (t s : str) : Prop := exists r, s = t ++ r.
(** unix_system returns [r] (with enough fuel for its loops). *)
Definition runs junk args ins outs spare spawned wret status (r : run) : Prop :=
  eventually (fun f => unix_system f junk args ins outs spare spawned wret status) (Ok r).
(** All writes make progress, no read fails; closing works. *)
Definition smooth_in (x : input) : Prop := (forall i, in_ans x i > 0) /\ in_close x = true.
Definition smooth_out (x : output) : Prop := (forall i, out_ans x i >= 0) /\ out_close x = true.
(** Less than 1 GiB; inputs are strings, whose lengths are ints. *)
Definition fits_in (x : input) : Prop := len (in_text x) <= int_max.
Definition fits_out (x : output) : Prop := len (out_text x) < 1073741824.
(** All descriptors *)
Definition descriptors (ins : list input) (outs : list output) (spare : list (Z * Z)) : list Z :=
  flat_map (fun x => [in_in x; in_out x]) ins ++ flat_map (fun x => [out_in x; out_out x]) outs ++ flat_map (fun p => [fst p; snd p]) spare.
(** How often [fd] was closed *)
Definition times (r : run) (fd : Z) : nat := count_occ Z.eq_dec (closes r) fd.
(** The descriptors that are closed before the pipes are destroyed: both ends, but not the writing end for an empty input *)
Definition closed_early (ins : list input) (outs : list output) : list Z :=
  flat_map (fun x => match in_text x with [] => [in_in x] | _ => [in_in x; in_out x] end) ins ++ flat_map (fun x => [out_in x; out_out x]) outs.
(** The return value when the threads report no error *)
Definition exit_code (wret : Z) (status : option Z) : Z := if wret <? 0 then -1 else match status with None => -1 | Some e => e end.
