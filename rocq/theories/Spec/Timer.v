(** Task timers, from the outside: the history of one task and its outermost intervals (C54). *)
From Coq Require Export Sorting.Sorted.
From Verif Require Import Base Model.Int Model.OStream Model.Timer Spec.OStream Spec.Text.
Local Open Scope Z_scope.

Definition task_of (e : tevent) : str := match e with TStart x _ | TCumul x _ | TReset x => x end.
(** What happened to a task since its last reset: starts (true) and stops (false) with their times *)
Definition tick := (bool * Z)%type.
Fixpoint since (x : str) (es : list tevent) (h : list tick) : list tick :=
  match es with
  | [] => h
  | e :: es' => since x es' (if seqb (task_of e) x
                             then match e with TStart _ t => h ++ [(true, t)] | TCumul _ t => h ++ [(false, t)] | TReset _ => [] end
                             else h)
  end.
Definition history (x : str) (es : list tevent) : list tick := since x es [].

Definition count (b : bool) (h : list tick) : nat := length (filter (fun e => Bool.eqb (fst e) b) h).
(** Never more ticks of the other kind than of kind [b] *)
Definition covered (b : bool) (h : list tick) : Prop := forall p q, h = p ++ q -> (count (negb b) p <= count b p)%nat.
Definition balanced (b : bool) (h : list tick) : Prop := covered b h /\ count (negb b) h = count b h.
(** No stop without a start *)
Definition well_nested (h : list tick) : Prop := covered true h.
(** The completed outermost intervals of a history that is well nested: from a start, over
    a balanced part, to a stop. *)
Inductive completed : list tick -> list (Z * Z) -> Prop :=
| co_end : completed [] []
| co_open t m : covered true m -> completed ((true, t) :: m) []
| co_interval t0 m t1 r is : balanced true m -> completed r is -> completed ((true, t0) :: m ++ (false, t1) :: r) ((t0, t1) :: is).
(** The same for any history: a stop too many is made up for by a start, and what is between
    them is lost. *)
Inductive counted : list tick -> list (Z * Z) -> Prop :=
| cu_end : counted [] []
| cu_open t m : covered true m -> counted ((true, t) :: m) []
| cu_interval t0 m t1 r is : balanced true m -> counted r is -> counted ((true, t0) :: m ++ (false, t1) :: r) ((t0, t1) :: is)
| cu_debt t m : covered false m -> counted ((false, t) :: m) []
| cu_repaid t0 m t1 r is : balanced false m -> counted r is -> counted ((false, t0) :: m ++ (true, t1) :: r) is.

Definition total (is : list (Z * Z)) : Z := fold_right (fun i s => (snd i - fst i) + s) 0 is.
(** The times of a history do not decrease. *)
Definition clock_ok (h : list tick) : Prop := StronglySorted Z.le (map snd h).

(** The line about a task *)
Definition line (indent : nat) (x : str) (ms n : Z) : str :=
  lit "Task '" ++ nonul x ++ lit "' took " ++ decimal ms ++ lit " ms"
  ++ (if 1 <? n then lit " (" ++ decimal n ++ lit " invocations)" else [])
  ++ chr 10 :: repeat " "%char indent.
Definition text (l : list item) : str := concat (map printed l).
(** The events are about less than 2^30 tasks. *)
Definition few_tasks (es : list tevent) : Prop :=
  exists U : list str, Z.of_nat (length U) < 1073741824 /\ forall e, In e es -> In (task_of e) U.
