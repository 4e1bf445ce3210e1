(** Strings as plain lists of characters, one per object. *)
From Verif Require Import Base Model.StringBuf.
Local Open Scope Z_scope.

Fixpoint put {A} (l : list A) (k : nat) (x : A) : list A :=
  match l, k with
  | [], _ => []
  | _ :: l', O => x :: l'
  | y :: l', S k' => y :: put l' k' x
  end.
(** What an operation may do to the values; only the bytes appearing by growing or by making
    an uninitialised string are left open. *)
Inductive vstep : sop -> list str -> list str -> Prop :=
| v_new n h t : Z.of_nat (length t) = n -> vstep (SNew n) h (h ++ [t])
| v_from t h : vstep (SFrom t) h (h ++ [t])
| v_copy k h t : nth_error h k = Some t -> vstep (SCopy k) h (h ++ [t])
| v_cat k k' h t t' : nth_error h k = Some t -> nth_error h k' = Some t' ->
    vstep (SCat k k') h (h ++ [t ++ t'])
| v_appendc k c h t : nth_error h k = Some t -> vstep (SAppendC k c) h (put h k (t ++ [c]))
| v_append k k' h t t' : nth_error h k = Some t -> nth_error h k' = Some t' ->
    vstep (SAppend k k') h (put h k (t ++ t'))
| v_write k i c h t : nth_error h k = Some t ->
    vstep (SWrite k i c) h (put h k (put t (Z.to_nat i) c))
| v_shrink k m h t : nth_error h k = Some t -> m <= Z.of_nat (length t) ->
    vstep (SResize k m) h (put h k (firstn (Z.to_nat m) t))
| v_grow k m h t u : nth_error h k = Some t -> Z.of_nat (length (t ++ u)) = m ->
    vstep (SResize k m) h (put h k (t ++ u)).
Inductive vrun : list sop -> list str -> list str -> Prop :=
| vrun_nil h : vrun [] h h
| vrun_cons o os h h1 h2 : vstep o h h1 -> vrun os h1 h2 -> vrun (o :: os) h h2.

(** The lengths after an operation; None when it refers to a string that does not exist, to a
    character outside the string, or to a length that is negative or above 2^30. *)
Definition max_len : Z := 1073741824.
Definition length_ok (n : Z) : bool := (0 <=? n) && (n <=? max_len).
Definition lstep (o : sop) (h : list Z) : option (list Z) :=
  let at_ k := nth_error h k in
  let if_ok n r := if length_ok n then Some r else None in
  match o with
  | SNew n => if_ok n (h ++ [n])
  | SFrom t => if_ok (Z.of_nat (length t)) (h ++ [Z.of_nat (length t)])
  | SCopy k => match at_ k with Some n => Some (h ++ [n]) | None => None end
  | SCat k k' => match at_ k, at_ k' with
                 | Some n, Some n' => if_ok (n + n') (h ++ [n + n']) | _, _ => None end
  | SAppendC k _ => match at_ k with Some n => if_ok (n + 1) (put h k (n + 1)) | None => None end
  | SAppend k k' => match at_ k, at_ k' with
                    | Some n, Some n' => if_ok (n + n') (put h k (n + n')) | _, _ => None end
  | SWrite k i _ => match at_ k with
                    | Some n => if (0 <=? i) && (i <? n) then Some h else None | None => None end
  | SResize k m => match at_ k with Some _ => if_ok m (put h k m) | None => None end
  end.
Fixpoint lrun (os : list sop) (h : list Z) : option (list Z) :=
  match os with [] => Some h | o :: os' => match lstep o h with Some h' => lrun os' h' | None => None end end.
