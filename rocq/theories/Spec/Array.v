(** Arrays as plain lists, one per object. *)
From Verif Require Import Base Model.Array Spec.StringBuf.
Local Open Scope Z_scope.

Section Spec.
Context {A : Type}.
(** What an operation may do to the lists; only the elements appearing by growing or by
    making an array of given length are left open. *)
Inductive wstep : aop A -> list (list A) -> list (list A) -> Prop :=
| w_new n h t : Z.of_nat (length t) = n -> wstep (ANew n) h (h ++ [t])
| w_from t h : wstep (AFrom t) h (h ++ [t])
| w_copy k h t : nth_error h k = Some t -> wstep (ACopy k) h (h ++ [t])
| w_cat k k' h t t' : nth_error h k = Some t -> nth_error h k' = Some t' ->
    wstep (ACat k k') h (h ++ [t ++ t'])
| w_cons x k h t : nth_error h k = Some t -> wstep (ACons x k) h (h ++ [x :: t])
| w_range k i j h t : nth_error h k = Some t ->
    wstep (ARange k i j) h (h ++ [firstn (Z.to_nat j - Z.to_nat i) (skipn (Z.to_nat i) t)])
| w_reverse k h t : nth_error h k = Some t -> wstep (AReverse k) h (h ++ [rev t])
| w_appendx k x h t : nth_error h k = Some t -> wstep (AAppendX k x) h (put h k (t ++ [x]))
| w_append k k' h t t' : nth_error h k = Some t -> nth_error h k' = Some t' ->
    wstep (AAppend k k') h (put h k (t ++ t'))
| w_write k i x h t : nth_error h k = Some t ->
    wstep (AWrite k i x) h (put h k (put t (Z.to_nat i) x))
| w_shrink k m h t : nth_error h k = Some t -> m <= Z.of_nat (length t) ->
    wstep (AResize k m) h (put h k (firstn (Z.to_nat m) t))
| w_grow k m h t u : nth_error h k = Some t -> Z.of_nat (length (t ++ u)) = m ->
    wstep (AResize k m) h (put h k (t ++ u)).
Inductive wrun : list (aop A) -> list (list A) -> list (list A) -> Prop :=
| wrun_nil h : wrun [] h h
| wrun_cons o os h h1 h2 : wstep o h h1 -> wrun os h1 h2 -> wrun (o :: os) h h2.

(** The lengths after an operation; None when it refers to an array that does not exist, to
    an element or a range outside the array, to a length that is negative or above 2^30, or
    when an array is appended to itself. *)
Definition alstep (o : aop A) (h : list Z) : option (list Z) :=
  let at_ k := nth_error h k in
  let if_ok n r := if length_ok n then Some r else None in
  match o with
  | ANew n => if_ok n (h ++ [n])
  | AFrom t => if_ok (Z.of_nat (length t)) (h ++ [Z.of_nat (length t)])
  | ACopy k | AReverse k => match at_ k with Some n => Some (h ++ [n]) | None => None end
  | ACat k k' => match at_ k, at_ k' with
                 | Some n, Some n' => if_ok (n + n') (h ++ [n + n']) | _, _ => None end
  | ACons _ k => match at_ k with Some n => if_ok (n + 1) (h ++ [n + 1]) | None => None end
  | ARange k i j => match at_ k with
                    | Some n => if (0 <=? i) && (i <=? j) && (j <=? n) then Some (h ++ [j - i]) else None
                    | None => None end
  | AAppendX k _ => match at_ k with Some n => if_ok (n + 1) (put h k (n + 1)) | None => None end
  | AAppend k k' => match at_ k, at_ k' with
                    | Some n, Some n' =>
                        if Nat.eqb k k' then None else if_ok (n + n') (put h k (n + n'))
                    | _, _ => None end
  | AWrite k i _ => match at_ k with
                    | Some n => if (0 <=? i) && (i <? n) then Some h else None | None => None end
  | AResize k m => match at_ k with Some _ => if_ok m (put h k m) | None => None end
  end.
Fixpoint alrun (os : list (aop A)) (h : list Z) : option (list Z) :=
  match os with
  | [] => Some h
  | o :: os' => match alstep o h with Some h' => alrun os' h' | None => None end
  end.
End Spec.
