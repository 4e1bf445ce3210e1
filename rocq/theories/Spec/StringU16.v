(** UTF-16 strings as lists of code units, one per object (C52). *)
From Verif Require Import Base Model.StringU16 Spec.StringBuf.
Local Open Scope Z_scope.

(** The units from [s] to [e], as far as they exist *)
Definition units (t : list Z) (s e : Z) : list Z :=
  if e <=? s then [] else firstn (Z.to_nat e - Z.to_nat s) (skipn (Z.to_nat s) t).
(** What an operation may do to the values; only the units that appear by growing or by making
    an uninitialised string are left open. *)
Inductive ustep_value : uop -> list (list Z) -> list (list Z) -> Prop :=
| u_new n h t : Z.of_nat (length t) = n -> ustep_value (UNew n) h (h ++ [t])
| u_from t h : ustep_value (UFrom t) h (h ++ [t])
| u_slice k s e h t : nth_error h k = Some t -> ustep_value (USlice k s e) h (h ++ [units t s e])
| u_copy k h t : nth_error h k = Some t -> ustep_value (UCopy k) h (h ++ [t])
| u_cat k k' h t t' : nth_error h k = Some t -> nth_error h k' = Some t' -> ustep_value (UCat k k') h (h ++ [t ++ t'])
| u_appendc k c h t : nth_error h k = Some t -> ustep_value (UAppendC k c) h (put h k (t ++ [c]))
| u_append k k' h t t' : nth_error h k = Some t -> nth_error h k' = Some t' -> ustep_value (UAppend k k') h (put h k (t ++ t'))
| u_write k i c h t : nth_error h k = Some t -> ustep_value (UWrite k i c) h (put h k (put t (Z.to_nat i) c))
| u_shrink k m h t : nth_error h k = Some t -> m <= Z.of_nat (length t) -> ustep_value (UResize k m) h (put h k (firstn (Z.to_nat m) t))
| u_grow k m h t u : nth_error h k = Some t -> Z.of_nat (length (t ++ u)) = m -> ustep_value (UResize k m) h (put h k (t ++ u))
| u_shrink_by k d h t : nth_error h k = Some t -> d <= 0 -> ustep_value (UExpand k d) h (put h k (firstn (Z.to_nat (Z.of_nat (length t) + d)) t))
| u_grow_by k d h t u : nth_error h k = Some t -> Z.of_nat (length u) = d -> ustep_value (UExpand k d) h (put h k (t ++ u))
| u_reserve k m h : ustep_value (UReserve k m) h h.
Inductive urun_value : list uop -> list (list Z) -> list (list Z) -> Prop :=
| urun_nil h : urun_value [] h h
| urun_cons o os h h1 h2 : ustep_value o h h1 -> urun_value os h1 h2 -> urun_value (o :: os) h h2.

(** The lengths after an operation; None when it refers to a string that does not exist, to a
    unit outside the string, to a length that is negative or above 2^30, or when it reserves
    room for nothing in a string that is not empty. *)
Definition ulen_step (o : uop) (h : list Z) : option (list Z) :=
  let at_ k := nth_error h k in
  let if_ok n r := if length_ok n then Some r else None in
  match o with
  | UNew n => if_ok n (h ++ [n])
  | UFrom t => if_ok (Z.of_nat (length t)) (h ++ [Z.of_nat (length t)])
  | USlice k s e => match at_ k with
                    | Some n => Some (h ++ [Z.of_nat (length (units (repeat 0 (Z.to_nat n)) s e))]) | None => None end
  | UCopy k => match at_ k with Some n => Some (h ++ [n]) | None => None end
  | UCat k k' => match at_ k, at_ k' with
                 | Some n, Some n' => if_ok (n + n') (h ++ [n + n']) | _, _ => None end
  | UAppendC k _ => match at_ k with Some n => if_ok (n + 1) (put h k (n + 1)) | None => None end
  | UAppend k k' => match at_ k, at_ k' with
                    | Some n, Some n' => if_ok (n + n') (put h k (n + n')) | _, _ => None end
  | UWrite k i _ => match at_ k with
                    | Some n => if (0 <=? i) && (i <? n) then Some h else None | None => None end
  | UResize k m => match at_ k with Some _ => if_ok m (put h k m) | None => None end
  | UExpand k d => match at_ k with Some n => if_ok (n + d) (put h k (n + d)) | None => None end
  | UReserve k m => match at_ k with
                    | Some n => if (m =? 0) && (0 <? n) then None else if_ok m h | None => None end
  end.
Fixpoint ulen_run (os : list uop) (h : list Z) : option (list Z) :=
  match os with [] => Some h | o :: os' => match ulen_step o h with Some h' => ulen_run os' h' | None => None end end.

(** Programs that do not reserve room *)
Definition reserves (o : uop) : bool := match o with UReserve _ _ => true | _ => false end.
(** Lexicographic order of lists of units *)
Fixpoint lex (strict : bool) (a b : list Z) : Prop :=
  match a, b with
  | [], [] => strict = false
  | [], _ :: _ => True
  | _ :: _, [] => False
  | x :: a', y :: b' => x < y \/ x = y /\ lex strict a' b'
  end.
