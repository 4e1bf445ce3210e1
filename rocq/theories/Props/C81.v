(** C81  Indented output: lines begin at the indentation, rules fill the line. *)
From Verif Require Import Base Model.Int Model.Hashmap Model.RelHashmap Model.OStream Model.Print Spec.OStream Spec.Print Spec.Display Proofs.PrintProofs Proofs.DisplayProofs.
Local Open Scope Z_scope.

(** The indentation is twice the depth of INDENT ... UNINDENT, whatever is printed; after matching ones it is what it was. *)
Theorem C81_nesting_partial : forall ps d d', 0 <= d < max_depth -> depth ps d = Some d' -> 0 <= d' < max_depth /\ exists is, display ps (2 * d) = Ok (is, 2 * d').
Proof. exact display_spec. Qed.
Print Assumptions C81_nesting_partial.
(** When INDENT and UNINDENT are used at the beginning of lines, every line begins at the column of the indentation. *)
Theorem C81_lines_partial : forall ps d d', 0 <= d < max_depth -> depth ps d = Some d' -> orderly true ps ->
  exists is s, display ps (2 * d) = Ok (is, 2 * d') /\ writes_text is s /\ (at_bol true ps = true -> column (2 * d) s = 2 * d').
Proof. exact lines_begin. Qed.
Print Assumptions C81_lines_partial.
(** A rule goes from the indentation to column 78, and the next line begins at the indentation. *)
Theorem C81_rule : forall ind, 0 <= ind <= 78 -> exists is, show_control HRULE ind = Ok (is, ind) /\ writes_text is (rule ind ++ newline ind) /\ column ind (rule ind) = 78 /\ column 78 (newline ind) = ind.
Proof. exact hrule_fills. Qed.
Print Assumptions C81_rule.
(** The indentation is that of all streams: after INDENT on one, the next line of another is indented. *)
Theorem C81_shared_refuted : exists i1 i2 ind, show_control INDENT 0 = Ok (i1, ind) /\ show_control LF ind = Ok (i2, ind) /\
  exists st, orun ([ONull; OBuffer 0; ONull; OBuffer 1] ++ map (OPut 0) i1 ++ map (OPut 1) i2 ++ [OUnbuffer 1]) (ostart []) = Ok st /\
  exists k, outs st = [k] /\ nth_error (strs st) k = Some (chr 10 :: lit "  ").
Proof. do 3 eexists. split; [reflexivity|]. split; [reflexivity|]. eexists. split; [vm_compute; reflexivity|]. eexists. split; reflexivity. Qed.
Print Assumptions C81_shared_refuted.
(** UNINDENT at the left margin moves the indentation to the left of it, and what is indented then is not where it should be. *)
Theorem C81_margin_refuted : exists is s, display [Ctl UNINDENT; Ctl INDENT] 0 = Ok (is, 0) /\ writes_text is s /\ column 0 s = 2.
Proof. do 2 eexists. split; [reflexivity|]. split; [apply text_writes; reflexivity | reflexivity]. Qed.
Print Assumptions C81_margin_refuted.
(** The indentation overflows exactly when 2^30 INDENTs are open. *)
Theorem C81_overflow_refuted : forall n, display (repeat (Ctl INDENT) n) 0 = UB <-> max_depth <= Z.of_nat n.
Proof. exact indent_overflow. Qed.
Print Assumptions C81_overflow_refuted.
(** A relative hash map is printed layer by layer, with rules between them; the null one is (null). *)
Theorem C81_rel_hashmap : forall K V (prk : K -> res (list item)) (prv : V -> res (list item)) ind hs ss, hs <> [] -> Forall2 (fun h s => prints (show_hashmap prk prv h) s) hs ss ->
  prints (show_rel_hashmap prk prv hs ind) (layered ind ss).
Proof. exact @rel_prints. Qed.
Print Assumptions C81_rel_hashmap.
Theorem C81_null : forall K V (prk : K -> res (list item)) (prv : V -> res (list item)) ind, prints (show_rel_hashmap prk prv [] ind) (lit "(null)").
Proof. exact @rel_null. Qed.
Print Assumptions C81_null.

Definition C81_program : list piece := [Say (lit "a"); Ctl LF; Ctl INDENT; Say (lit "b"); Ctl LF; Say (lit "c"); Ctl HRULE; Ctl UNINDENT].
Example C81_example : orderly true C81_program /\ depth C81_program 0 = Some 0 /\ at_bol true C81_program = true /\
  exists is, display C81_program 0 = Ok (is, 0) /\ writes_text is (lit "a" ++ chr 10 :: lit "  b" ++ chr 10 :: lit "  c" ++ repeat "-"%char 76 ++ chr 10 :: lit "  " ++ [chr 8; chr 8])%list.
Proof.
  split; [|split; [reflexivity|split; [reflexivity|]]].
  - cbn. repeat (first [split | apply Forall_cons | apply Forall_nil | reflexivity | discriminate]).
  - eexists. split; [reflexivity|]. apply text_writes. reflexivity.
Qed.
Example C81_example_layers : exists h, hm_new (K := Z) (V := Z) 0 1 1 = Ok h /\ prints (show_rel_hashmap (show TInt) (show TInt) [h; h] 0)
  (lit "{  }" ++ chr 10 :: repeat "-"%char 78 ++ [chr 10; chr 10] ++ lit "{  }" ++ [chr 10])%list.
Proof.
  eexists. split; [reflexivity|]. apply (C81_rel_hashmap Z Z (show TInt) (show TInt) 0 _ [lit "{  }"; lit "{  }"]); [discriminate|].
  constructor; [|constructor; [|constructor]]; (eapply prints_text; reflexivity).
Qed.
