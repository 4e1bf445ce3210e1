(** C65  Tab expansion. *)
From Verif Require Import Base Model.Text Spec.Text Proofs.StrProofs.
Local Open Scope Z_scope.

(** Every tab is expanded up to the next column that is a multiple of the tab width. *)
Theorem C65_tabs_expanded_partial : forall (s : str) (tw : Z), 0 < tw ->
  convert_tabs_to_spaces s tw = Ok (expand_tabs tw 0 s).
Proof. exact convert_tabs_spec. Qed.
Print Assumptions C65_tabs_expanded_partial.
Theorem C65_no_tab_left : forall (tw : Z) (s : str) (col : Z), ~ In (chr 9) (expand_tabs tw col s).
Proof. exact expand_no_tab. Qed.
Print Assumptions C65_no_tab_left.
(** Missing: a tab width of zero divides by zero on every text with a tab. *)
Theorem C65_zero_width_refuted : forall s : str, In (chr 9) s -> convert_tabs_to_spaces s 0 = UB.
Proof. exact convert_tabs_zero. Qed.
Print Assumptions C65_zero_width_refuted.

Example C65_example :
  convert_tabs_to_spaces (lit "ab" ++ [chr 9] ++ lit "c" ++ [chr 10; chr 9] ++ lit "d") 4
  = Ok (lit "ab  c" ++ [chr 10] ++ lit "    d").
Proof. vm_compute. auto. Qed.
