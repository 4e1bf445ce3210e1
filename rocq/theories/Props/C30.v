(** C30  parse_string behaves as one flat input. *)
From Verif Require Import Base Model.Int Model.ParseString Spec.ParseString Proofs.ParseStringProofs.
Local Open Scope Z_scope.

(** Any sequence of calls on parse_string (s) is answered as on the flat string s; the test
    for more input needs a non-empty start (see the first refutation). *)
Theorem C30_flat_input_partial : forall (L : Z) (s : str) (cs : list ps_call),
  Z.of_nat (length s) <= L -> Forall (call_fits L) cs -> (s <> [] \/ ~ In PMore cs) ->
  ps_run cs (ps_make s) = Ok (flat_run cs s).
Proof. exact ps_simulates. Qed.
Print Assumptions C30_flat_input_partial.
(** Starting from parse_string (). *)
Theorem C30_flat_empty_partial : forall (L : Z) (cs : list ps_call),
  0 <= L -> Forall (call_fits L) cs -> ps_run cs ps_empty = Ok (flat_run cs []).
Proof. exact ps_empty_simulates. Qed.
Print Assumptions C30_flat_empty_partial.

(** False as stated: parse_string ("") claims that there is more input ... *)
Theorem C30_more_refuted : ~ forall s cs, ps_run cs (ps_make s) = Ok (flat_run cs s).
Proof. intros H. specialize (H [] [PMore]). vm_compute in H. discriminate. Qed.
Print Assumptions C30_more_refuted.
(** ... and reading "everything" with the largest int overflows once a character is consumed. *)
Theorem C30_read_all_refuted :
  ps_run [PRead 1; PRead int_max] (ps_make (lit "abc")) = UB
  /\ flat_run [PRead 1; PRead int_max] (lit "abc") = [AStr (lit "a"); AStr (lit "bc")].
Proof.
  split; [vm_compute; reflexivity|]. unfold flat_run, flat_step.
  change (skipn (Z.to_nat 1) (lit "abc")) with (lit "bc").
  assert (E : (length (lit "bc") <= Z.to_nat int_max)%nat) by (change (length (lit "bc")) with 2%nat; unfold int_max; lia).
  rewrite (firstn_all2 _ E).
  reflexivity.
Qed.
Print Assumptions C30_read_all_refuted.

(** Reads across chunk boundaries, pushes in between. *)
Example C30_example :
  let cs := [PRead 2; PWrite (lit "XY"); PGetChar 3; PGetString 4; PTest (lit "XYcd"); PAdvance 1; PRead 3; PMore; PPrint;
             PRead 9; PMore; PGetChar 0; PTest []] in
  Forall (call_fits 100) cs /\
  ps_run cs (ps_make (lit "abcdef"))
  = Ok [AStr (lit "ab"); ANone; AChar "d"; AStr (lit "XYcd"); ABool true; ANone; AStr (lit "Ycd"); ABool true;
        AStr (lit "ef"); AStr (lit "ef"); ABool false; AChar (chr 0); ABool true].
Proof. split; [repeat constructor; cbn; lia|vm_compute; reflexivity]. Qed.
