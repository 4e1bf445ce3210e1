(** C103  Stack traces. *)
From Verif Require Import Base Model.Int Model.Str Model.Stacktrace Spec.Stacktrace Proofs.StacktraceProofs.
Local Open Scope Z_scope.

(** For all stacks, names and bounds but the largest: the text is the title and a line for each of the innermost frames,
    and everything is released. *)
Theorem C103_text_partial : forall name stack max m, 0 <= max < 4294967295 -> Z.of_nat (length stack) <= int_max -> innermost max stack m ->
  exists ev, get_stacktrace name stack max = Ok (stack_text (map name m), ev) /\ balanced ev.
Proof. exact trace_text. Qed.
Print Assumptions C103_text_partial.
Theorem C103_innermost : forall max (stack : list Z), 0 <= max -> (exists m, innermost max stack m) /\ forall m m', innermost max stack m -> innermost max stack m' -> m = m'.
Proof. exact (fun max stack K => conj (ex_intro _ _ (inner_exists max stack K)) (fun m m' I J => eq_trans (inner_fun max stack m K I) (eq_sym (inner_fun max stack m' K J)))). Qed.
Print Assumptions C103_innermost.
(** There are no more lines than frames and the title, but at least two. *)
Theorem C103_lines_partial : forall name stack max t ev, 0 <= max < 4294967295 -> Z.of_nat (length stack) <= int_max -> (forall a s, name a = Some s -> ~ In newline s) ->
  get_stacktrace name stack max = Ok (t, ev) -> Z.of_nat (count_lines t) = 1 + Z.max 1 (Z.min max (Z.of_nat (length stack))).
Proof. exact trace_lines. Qed.
Print Assumptions C103_lines_partial.
(** The text tells the names: equal texts are of frames with equal names. *)
Theorem C103_faithful_partial : forall name name' stack stack' max t ev ev' m m', 0 <= max < 4294967295 -> Z.of_nat (length stack) <= int_max -> Z.of_nat (length stack') <= int_max ->
  (forall a s, name a = Some s -> ~ In newline s) -> (forall a s, name' a = Some s -> ~ In newline s) -> (forall a, name a <> None) -> (forall a, name' a <> None) ->
  (forall a, name a <> Some (lit "<empty, possibly corrupt>")) -> (forall a, name' a <> Some (lit "<empty, possibly corrupt>")) ->
  innermost max stack m -> innermost max stack' m' ->
  get_stacktrace name stack max = Ok (t, ev) -> get_stacktrace name' stack' max = Ok (t, ev') -> map name m = map name' m'.
Proof. exact trace_faithful. Qed.
Print Assumptions C103_faithful_partial.
(** The largest bound makes an array of no cells, and the first frame is written beyond it. *)
Theorem C103_refuted_largest : forall name stack, stack <> [] -> Z.of_nat (length stack) <= int_max -> get_stacktrace name stack 4294967295 = UB.
Proof. exact trace_all. Qed.
Print Assumptions C103_refuted_largest.

Definition C103_name (a : Z) : option str := if a =? 1 then Some (lit "main") else if a =? 2 then Some (lit "f") else None.
Example C103_example : innermost 2 [2; 7; 1] [2; 7] /\ get_stacktrace C103_name [2; 7; 1] 2 = Ok (of_lines [lit "Backtrace of C++ stack:"; lit "  f"; lit "  null"], [Made Addresses; Made Symbols; Made Buffer; Released Buffer; Released Symbols; Released Addresses])
  /\ forall a s, C103_name a = Some s -> ~ In newline s.
Proof.
  repeat split; [exists [1]; split; reflexivity|]. intros a s. unfold C103_name. destruct (a =? 1); [|destruct (a =? 2)]; intros E; try discriminate; injection E as <-; cbn; intuition discriminate.
Qed.
Example C103_faithful_example : let name (a : Z) := Some (if a =? 1 then lit "main" else lit "f") in
  (forall a s, name a = Some s -> ~ In newline s) /\ (forall a, name a <> None) /\ (forall a, name a <> Some (lit "<empty, possibly corrupt>"))
  /\ get_stacktrace name [2; 1] 10 = Ok (of_lines [lit "Backtrace of C++ stack:"; lit "  f"; lit "  main"], [Made Addresses; Made Symbols; Made Buffer; Released Buffer; Released Symbols; Released Addresses]).
Proof. cbv zeta. split; [|split; [discriminate | split; [intros a; destruct (a =? 1); discriminate | reflexivity]]]. intros a s E. injection E as <-. destruct (a =? 1); cbn; intuition discriminate. Qed.
