(** C53  Output streams: buffering, copies of handles, and what is freed. *)
From Verif Require Import Base Model.OStream Spec.StringBuf Spec.OStream Proofs.OStreamProofs.
Local Open Scope Z_scope.

(** Every program that uses existing handles and unbuffers only buffered ones runs without
    undefined behaviour and does what the stacks of buffers do: the same text in every file, also
    when writes fail, and the same text returned by every unbuffer. *)
Theorem C53_streams_are_stacks : forall fs os a,
  arun os (astart fs) = Some a -> exists st, orun os (ostart fs) = Ok st /\ agrees st a.
Proof. exact streams_refine. Qed.
Print Assumptions C53_streams_are_stacks.

(** Whatever is printed on a handle between buffer and unbuffer, with further buffers in between
    that are unbuffered again, is returned by unbuffer, reaches no file and no older buffer, and
    the handle is what it was.  [t] is what was printed, without NUL characters.
    Missing: NUL characters, see the refutation. *)
Theorem C53_between_partial : forall fs os0 a st h l os t,
  arun os0 (astart fs) = Some a -> orun os0 (ostart fs) = Ok st -> astack a h = Some l -> balanced h os t ->
  exists st' inner k, orun (OBuffer h :: os ++ [OUnbuffer h]) st = Ok st'
    /\ map ftext (files st') = map ftext (files st) /\ handles st' = handles st
    /\ outs st' = outs st ++ inner ++ [k] /\ nth_error (strs st') k = Some t
    /\ (forall j u, nth_error (objs a) j = Some (AText u) -> nth_error (strs st') j = Some u).
Proof. exact streams_between. Qed.
Print Assumptions C53_between_partial.

(** A string with a NUL character is not returned as it was printed. *)
Theorem C53_nul_refuted : forall fs os0 a st h l s,
  arun os0 (astart fs) = Some a -> orun os0 (ostart fs) = Ok st -> astack a h = Some l -> In (chr 0) s ->
  exists st' k t, orun [OBuffer h; OPut h (IStr s); OUnbuffer h] st = Ok st'
    /\ outs st' = outs st ++ [k] /\ nth_error (strs st') k = Some t /\ t <> s.
Proof. exact streams_nul. Qed.
Print Assumptions C53_nul_refuted.

(** A stream object exists exactly as long as a handle reaches it. *)
Theorem C53_freed_when_unreachable : forall fs os a st,
  arun os (astart fs) = Some a -> orun os (ostart fs) = Ok st ->
  forall p, (exists r, nth_error (reps st) p = Some (Some r)) <-> exists h l, astack a h = Some l /\ In p l.
Proof. exact streams_live. Qed.
Print Assumptions C53_freed_when_unreachable.

(** No file is closed twice, no file of somebody else is closed, and when all handles are
    destroyed every file opened by a stream has been closed. *)
Theorem C53_files_closed : forall fs os a st,
  arun os (astart fs) = Some a -> orun os (ostart fs) = Ok st ->
  Forall (fun x => (fclosed x <= (if fown x then 1 else 0))%nat) (files st)
  /\ (Forall (fun l => l = None) (stacks a) ->
      Forall (fun r => r = None) (reps st) /\ Forall (fun x => fclosed x = if fown x then 1%nat else 0%nat) (files st)).
Proof. exact streams_files. Qed.
Print Assumptions C53_files_closed.

(** Two files, the second write to the first one fails; nested buffers; a copy made while
    buffered still writes to the buffer that was returned; redirection. *)
Definition C53_program : list oop :=
  [OFile (Some 0%nat); OPut 0 (IText (lit "a")); OBuffer 0; OCopy 0; OPut 0 (IInt (-12)); OBuffer 0; OPut 0 (IBool true); OUnbuffer 0;
   OPut 0 (IStr ["x"%char; chr 0; "y"%char]); OUnbuffer 0; OPut 1 (IChar "!"); OPut 0 (IText (lit "b")); OPut 0 (IText (lit "c"));
   OPath true []; OAssign 0 2; OPut 0 (IText (lit "d")); ODrop 0; ODrop 1; ODrop 2].
Example C53_example :
  (exists a, arun C53_program (astart [(lit "<", [false; true])]) = Some a)
  /\ (let* st := orun C53_program (ostart [(lit "<", [false; true])]) in
      Ok (map (fun x => (ftext x, fclosed x)) (files st), map (fun k => nth k (strs st) []) (outs st), reps st))
     = Ok ([(lit "<a", 0%nat); (lit "d", 1%nat)], [lit "true"; lit "-12xy!"], [None; None; None; None]).
Proof. split; [eexists|]; vm_compute; reflexivity. Qed.
Example C53_balanced_example : balanced 0 [OPut 0 (IText (lit "a")); OBuffer 0; OPut 0 (IText (lit "b")); OUnbuffer 0; OPut 0 (IInt 7)] (lit "a7").
Proof. apply (bal_put 0 (IText (lit "a")) _ (lit "7")). apply (bal_buffer 0 [OPut 0 (IText (lit "b"))] (lit "b") [OPut 0 (IInt 7)] (lit "7")); [apply (bal_put 0 (IText (lit "b")) _ []) | apply (bal_put 0 (IInt 7) _ [])]; constructor. Qed.
