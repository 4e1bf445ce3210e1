(** C54  Task timers. *)
From Verif Require Import Base Model.Int Model.OStream Model.Timer Spec.Text Spec.OStream Spec.Timer Proofs.TimerProofs.
Local Open Scope Z_scope.

(** After any events on less than 2^30 tasks, the report on a task whose starts and stops since its
    last reset nest (no stop comes without a start) gives the sum of the lengths of the completed
    outermost intervals and their number.  What happened to other tasks, or before the
    reset, has no influence.  Sums are counted modulo 2^32; see C54_clock. *)
Theorem C54_intervals_partial : forall es x indent threshold, few_tasks es -> Z.of_nat (length (history x es)) < 4294967296 ->
  well_nested (history x es) -> exists st items is, trun es = Ok st /\ bench_print indent x threshold st = Ok items
  /\ completed (history x es) is /\ (forall is', completed (history x es) is' -> is' = is)
  /\ text items = if total is mod 4294967296 <? threshold then [] else line indent x (total is mod 4294967296) (Z.of_nat (length is)).
Proof. exact timer_report_nested. Qed.
Print Assumptions C54_intervals_partial.

(** With a clock that does not go back every interval has a length of at least 0, and the sum is not more
    than the time from the first event to the last: no sum is reduced by 2^32 in the first 49 days. *)
Theorem C54_clock : forall h is, completed h is -> clock_ok h ->
  Forall (fun i => fst i <= snd i) is /\ forall lo hi, lo <= hi -> (forall b t, In (b, t) h -> lo <= t <= hi) -> 0 <= total is <= hi - lo.
Proof. exact completed_clock. Qed.
Print Assumptions C54_clock.

(** The report on all tasks has one line for each task with a counted interval since its last
    reset, in alphabetical order. *)
Theorem C54_all_tasks : forall es indent, few_tasks es -> (forall x, Z.of_nat (length (history x es)) < 4294967296) ->
  exists st items ks ls, trun es = Ok st /\ bench_print_all indent st = Ok items /\ text items = concat ls
  /\ StronglySorted lex_lt ks /\ (forall x, In x ks <-> exists i is, counted (history x es) (i :: is))
  /\ Forall2 (fun x l => exists is, counted (history x es) is /\ l = line indent x (total is mod 4294967296) (Z.of_nat (length is))) ks ls.
Proof. exact timer_report_all. Qed.
Print Assumptions C54_all_tasks.

(** Every history, nested or not, has a unique list of counted intervals, for nested histories
    the completed ones, and the report is about these. *)
Theorem C54_counted : forall h, exists is, counted h is /\ (forall is', counted h is' -> is = is') /\ (well_nested h -> completed h is).
Proof.
  exact (fun h => match counted_exists h with ex_intro _ is K =>
    ex_intro _ is (conj K (conj (counted_unique h is K) (counted_completed h is K))) end).
Qed.
Print Assumptions C54_counted.
Theorem C54_any_history : forall es x is indent threshold, few_tasks es -> Z.of_nat (length (history x es)) < 4294967296 ->
  counted (history x es) is -> exists st items, trun es = Ok st /\ bench_print indent x threshold st = Ok items
  /\ text items = if total is mod 4294967296 <? threshold then [] else line indent x (total is mod 4294967296) (Z.of_nat (length is)).
Proof. exact timer_report. Qed.
Print Assumptions C54_any_history.

(** The claim for all sequences is false: after a stop without a start the next interval, from
    10 to 15, is not counted. *)
Definition C54_report (es : list tevent) : res str :=
  let* st := trun es in let* i := bench_print 0 (lit "job") 0 st in Ok (text i).
Theorem C54_unmatched_stop_refuted :
  C54_report [TStart (lit "job") 10; TCumul (lit "job") 15] = Ok (line 0 (lit "job") 5 1)
  /\ C54_report [TCumul (lit "job") 3; TStart (lit "job") 10; TCumul (lit "job") 15] = Ok (line 0 (lit "job") 0 0).
Proof. split; vm_compute; reflexivity. Qed.
Print Assumptions C54_unmatched_stop_refuted.

(** Two tasks, nested starts of one of them, a reset, and an interval that is not finished *)
Definition C54_events : list tevent :=
  [TStart (lit "a") 1; TCumul (lit "a") 9; TReset (lit "a"); TStart (lit "b") 10; TStart (lit "a") 11; TStart (lit "b") 12;
   TCumul (lit "b") 15; TCumul (lit "a") 16; TCumul (lit "b") 20; TStart (lit "a") 30; TCumul (lit "a") 34; TStart (lit "a") 40].
Example C54_example : few_tasks C54_events
  /\ history (lit "a") C54_events = [(true, 11); (false, 16); (true, 30); (false, 34); (true, 40)]
  /\ well_nested (history (lit "a") C54_events) /\ clock_ok (history (lit "a") C54_events)
  /\ completed (history (lit "b") C54_events) [(10, 20)]
  /\ (let* st := trun C54_events in let* i := bench_print_all 1 st in Ok (text i))
     = Ok (line 1 (lit "a") 9 2 ++ line 1 (lit "b") 10 1)
  /\ line 0 (lit "a") 9 2 = lit "Task 'a' took 9 ms (2 invocations)" ++ [chr 10].
Proof.
  split; [exists [lit "a"; lit "b"]; split; [cbn; lia|]; intros e H; cbn in H;
          repeat destruct H as [<-|H]; cbn; auto; contradiction|].
  split; [reflexivity|]. split.
  { intros p q E. vm_compute in E. repeat (destruct p as [|? p]; [cbn; lia|injection E as <- E]). destruct p; [cbn; lia|discriminate]. }
  split; [vm_compute; repeat (constructor; [|repeat constructor; discriminate]); constructor|].
  split; [|split; vm_compute; reflexivity].
  apply (co_interval 10 [(true, 12); (false, 15)] 20 [] []); [|constructor].
  split; [|reflexivity]. intros p q E. repeat (destruct p as [|? p]; [cbn; lia|injection E as <- E]). destruct p; [cbn; lia|discriminate].
Qed.
