(** Proofs about numbers in texts. *)
From Coq Require Import QArith Qabs Lqa Lia.
From Verif Require Import Base Model.Int Model.Chars Model.Str Model.NumStr Model.Reader Model.Length Model.Double Model.DoubleText Model.DoubleRead.
From Verif Require Import Spec.Numeral Spec.Search Spec.Reader Spec.Length Spec.Double Spec.DoubleText.
From Verif Require Import Proofs.ReaderProofs Proofs.LengthProofs Proofs.DoubleProofs Proofs.DecimalProofs Proofs.DoubleTextProofs Proofs.DoubleRoundProofs.
Local Open Scope Z_scope.
Notation is_double := Spec.Double.is_double.

Lemma read_meant other t neg m e : denotes t neg m e -> meant neg m e (as_double other t).
Proof.
  intros D. assert (R := read_number other [] t [] neg m e ltac:(constructor) D I). rewrite app_nil_r in R. cbn [app] in R. destruct R as (R1 & R2 & R3).
  destruct R3 as [(z & E) | E]; rewrite E; cbn; split; auto; [now apply R1 | now apply R2].
Qed.
Lemma read_value other p r l q neg m e : number r l q -> denotes l neg m e ->
  exists x, meant neg m e x /\ read_double_value other (p ++ r) (slen p) = Ok (true, slen p + slen l, x).
Proof.
  intros N D. exists (as_double other l). split; [now apply read_meant|]. unfold read_double_value. rewrite (proj1 (read_double_spec p r) l q N). reflexivity.
Qed.
Lemma read_none other p r : (forall l q, ~ number r l q) -> read_double_value other (p ++ r) (slen p) = Ok (false, slen p, Num false 0).
Proof. intros N. unfold read_double_value. rewrite (proj2 (read_double_spec p r) N). reflexivity. Qed.
(** Which numbers have digits *)
Lemma digits_all l : Forall digit l -> all_digits l.
Proof. auto. Qed.
Lemma numeral_some ds : ds <> [] -> all_digits ds -> exists m, numeral 10 dec_digit_value ds = Some m.
Proof. intros N D. eexists. apply numeral_value; auto. Qed.
Lemma exponent_value q e q' : Reader.exponent q e q' -> exists x, DoubleText.exponent e x.
Proof.
  intros E. destruct E as [q _ | c sign ds r q C S N (_ & D & _)]; [exists 0; now left|]. destruct (numeral_some ds N D) as (n & V).
  destruct S as [-> | ->]; [exists n | exists (- n)]; right; [exists c, [], ds, n | exists c, (lit "-"), ds, n]; auto 10.
Qed.
Lemma unsigned_digits r l q : unsigned_number r l q -> (forall neg : bool, exists m e, denotes (minus neg ++ l) neg m e)
  \/ exists ex, l = lit "." ++ ex /\ (ex = [] \/ exists c t, ex = c :: t /\ (c = "e"%char \/ c = "E"%char)).
Proof.
  intros U. destruct U as [r ds q f q' e q'' (_ & D & _) P N X]. destruct (exponent_value _ _ _ X) as (x & EX).
  assert (S : forall neg : bool, (minus neg = [] \/ minus neg = lit "+") /\ neg = false \/ minus neg = lit "-" /\ neg = true) by (intros []; auto).
  destruct P as [q _ | fs r' q (_ & DF & _)].
  - left. intros neg. destruct N as [N | N]; [|now destruct N]. destruct (numeral_some ds N D) as (m & V). exists m, (x - 0). exists (minus neg), ds, [], [], e, x.
    split; [reflexivity|]. split; [apply S|]. split; [right; auto|]. rewrite app_nil_r. auto.
  - destruct (ds ++ fs) as [| c t] eqn:E.
    + right. apply app_eq_nil in E. destruct E as [-> ->]. exists e. split; [reflexivity|]. destruct X as [q _ | c sign ds0 r0 q C _ _ _]; [now left | right; eauto].
    + left. intros neg. destruct (numeral_some (ds ++ fs)) as (m & V); [rewrite E; discriminate | apply Forall_app; auto|]. exists m, (x - Z.of_nat (length fs)). exists (minus neg), ds, (lit "."), fs, e, x.
      split; [reflexivity|]. split; [apply S|]. split; [now left|]. auto.
Qed.
Lemma number_digits r l q : number r l q -> (exists neg m e, denotes l neg m e)
  \/ exists sign ex, l = sign ++ lit "." ++ ex /\ (sign = [] \/ sign = lit "-") /\ (ex = [] \/ exists c t, ex = c :: t /\ (c = "e"%char \/ c = "E"%char)).
Proof.
  intros N. destruct N as [r l q U | r l q U]; destruct (unsigned_digits _ _ _ U) as [D | (ex & -> & X)].
  - left. exists false. apply (D false).
  - right. exists [], ex. auto.
  - left. exists true. apply (D true).
  - right. exists (lit "-"), ex. auto.
Qed.
(** A point without digits *)
Lemma nul_free s : Forall (fun c => code c <> 0) s -> before_nul s = s.
Proof. intros F. induction F as [| c s C F IH]; [reflexivity|]. cbn [before_nul]. apply Z.eqb_neq in C. rewrite C, IH. reflexivity. Qed.
Lemma no_digits other sign ex : sign = [] \/ sign = lit "-" -> (ex = [] \/ exists c t, ex = c :: t /\ (c = "e"%char \/ c = "E"%char)) ->
  as_double other (sign ++ lit "." ++ ex) = other (before_nul (sign ++ lit "." ++ ex)).
Proof. intros [-> | ->] [-> | (c & t & -> & [-> | ->])]; reflexivity. Qed.

(** ** Printed numbers *)
Lemma fraction_point f q : fraction f -> ends_number q -> (forall c t, q = c :: t -> c <> "."%char) -> point (f ++ q) f q.
Proof.
  intros [-> | (ds & c & -> & D & _)] E N; [now constructor|]. change ((lit "." ++ ds ++ [c]) ++ q) with ("."%char :: (ds ++ [c]) ++ q). apply (point_some (ds ++ [c])).
  split; [reflexivity|]. split; [exact D|]. intros c' t ->. destruct E as [E _]. unfold digit. now rewrite E.
Qed.
Lemma ends_head q : ends_number q -> forall c t, q = c :: t -> ~ digit c /\ c <> "."%char /\ c <> "e"%char /\ c <> "E"%char.
Proof. intros E c t ->. destruct E as [E1 E2]. unfold digit. rewrite E1. split; [tauto|]. repeat split; intros ->; apply E2; cbn; tauto. Qed.
Lemma plain_number u q : plain u -> ends_number q -> unsigned_number (u ++ q) u q.
Proof.
  intros (ip & f & -> & D & F & N) E. assert (H := ends_head q E). rewrite <- (app_nil_r (ip ++ f)) at 2. rewrite <- !app_assoc. apply (number_intro (ip ++ f ++ q) ip (f ++ q) f q [] q).
  - split; [reflexivity|]. split; [exact D|]. intros c t X. destruct F as [-> | (ds & d & -> & _ & _)]; [now destruct (H c t X)|]. injection X as <- _. now unfold digit.
  - apply fraction_point; auto. intros c t X. now destruct (H c t X) as (_ & Y & _).
  - left. destruct N as [-> | (c & r & -> & _)]; discriminate.
  - constructor. intros c t X. now destruct (H c t X) as (_ & _ & Y).
Qed.
Lemma longest_one c q : digit c -> (forall d t, q = d :: t -> ~ digit d) -> longest digit (c :: q) [c] q.
Proof. intros C H. split; [reflexivity|]. split; [constructor; [auto | constructor] | auto]. Qed.
Lemma fraction_start f c t q : fraction f -> ~ digit "e"%char -> f ++ "e"%char :: q = c :: t -> ~ digit c.
Proof. intros [-> | (ds & d & -> & _ & _)] N X; injection X as <- _; [exact N | now unfold digit]. Qed.
Lemma e_point f q : fraction f -> point (f ++ "e"%char :: q) f ("e"%char :: q).
Proof.
  intros [-> | (ds & d & -> & D & _)]; [constructor; intros c t X; injection X as <- _; discriminate|].
  change ((lit "." ++ ds ++ [d]) ++ "e"%char :: q) with ("."%char :: (ds ++ [d]) ++ "e"%char :: q). apply (point_some (ds ++ [d])). split; [reflexivity|]. split; [exact D|]. intros c t X. injection X as <- _. now unfold digit.
Qed.
Lemma scientific_small u q : scientific u -> ~ In "+"%char u -> ends_number q -> unsigned_number (u ++ q) u q.
Proof.
  intros (c & f & s & xs & -> & C & N & F & S & X & L) NP E. assert (H := ends_head q E). destruct S as [-> | ->].
  { destruct NP. right. apply in_app_iff. right. right. now left. }
  change (c :: f ++ lit "e" ++ "-"%char :: xs) with ([c] ++ f ++ "e"%char :: lit "-" ++ xs).
  replace (([c] ++ f ++ "e"%char :: lit "-" ++ xs) ++ q) with (c :: f ++ "e"%char :: lit "-" ++ xs ++ q) by (cbn [app]; f_equal; rewrite <- app_assoc; reflexivity).
  apply (number_intro _ [c] (f ++ "e"%char :: lit "-" ++ xs ++ q) f ("e"%char :: lit "-" ++ xs ++ q) ("e"%char :: lit "-" ++ xs) q).
  - apply longest_one; [exact C|]. intros d t Y. apply (fraction_start _ _ _ _ F ltac:(unfold digit; vm_compute; tauto) Y).
  - now apply e_point.
  - left. discriminate.
  - apply exp_some; auto; [intros ->; destruct L as [L | (L & _)]; discriminate|]. split; [reflexivity|]. split; [exact X|]. intros d t Y. now destruct (H d t Y).
Qed.
Lemma plus_exponent y l q : ~ Reader.exponent ("e"%char :: "+"%char :: y) l q.
Proof.
  intros X. remember ("e"%char :: "+"%char :: y) as w eqn:W. destruct X as [w H | c sg ds r q C S N L].
  - destruct (H _ _ W) as [K _]. now apply K.
  - destruct S as [-> | ->]; [|discriminate]. destruct (longest_head _ _ _ L N) as (d & r1 & -> & D). injection W as _ -> _. now apply D.
Qed.
Lemma scientific_large u q l q' : scientific u -> In "+"%char u -> ~ unsigned_number (u ++ q) l q'.
Proof.
  intros (c & f & s & xs & -> & C & N & F & S & X & L) P U. assert (PS : s = "+"%char).
  { destruct S as [S | S]; [exact S|]. subst s. exfalso. destruct P as [P | P]; [subst c; now apply C|]. apply in_app_iff in P. destruct P as [P | P].
    - destruct F as [-> | (ds & d & -> & D & _)]; [destruct P|]. destruct P as [P | P]; [discriminate|]. unfold all_digits in D. rewrite Forall_forall in D. now apply (D _ P).
    - destruct P as [P | [P | P]]; [discriminate | discriminate|]. unfold all_digits in X. rewrite Forall_forall in X. now apply (X _ P). }
  subst s. replace ((c :: f ++ lit "e" ++ "+"%char :: xs) ++ q) with (c :: f ++ "e"%char :: "+"%char :: xs ++ q) in U by (cbn [app lit list_ascii_of_string]; f_equal; rewrite <- app_assoc; reflexivity).
  remember (c :: f ++ "e"%char :: "+"%char :: xs ++ q) as r eqn:R. destruct U as [r ds q0 f0 q1 e q2 LD P1 _ EX]. subst r.
  assert (L1 : longest digit (c :: f ++ "e"%char :: "+"%char :: xs ++ q) [c] (f ++ "e"%char :: "+"%char :: xs ++ q)).
  { apply longest_one; [exact C|]. intros d t Y. apply (fraction_start _ _ _ _ F ltac:(unfold digit; vm_compute; tauto) Y). }
  destruct (longest_unique _ _ _ _ _ _ LD L1) as [-> ->]. destruct (point_unique _ _ _ _ _ P1 (e_point f _ F)) as [-> ->].
  now apply plus_exponent in EX.
Qed.
Lemma minus_number neg u q : unsigned_number (u ++ q) u q -> number ((minus neg ++ u) ++ q) (minus neg ++ u) q.
Proof. intros U. destruct neg; cbn [minus app]; [now apply number_minus | now apply number_plus]. Qed.
Lemma minus_none neg u q : (exists c t, u = c :: t /\ digit c) -> (forall l q', ~ unsigned_number (u ++ q) l q') -> forall l q', ~ number ((minus neg ++ u) ++ q) l q'.
Proof.
  intros (d & t & -> & D) N l q' U. destruct neg; cbn [minus app] in U.
  - inversion U as [r0 l0 q0 V | r0 l0 q0 V]; subst; [|now apply (N _ _ V)]. destruct (unsigned_head _ _ _ V) as (x & y & X & Y). injection X as <- _. destruct Y as [Y | Y]; [now apply Y | discriminate].
  - inversion U as [r0 l0 q0 V | r0 l0 q0 V]; subst; [now apply (N _ _ V)|]. now apply D.
Qed.
(** A plus is printed from a million on. *)
Lemma plain_no_plus u : plain u -> ~ In "+"%char u.
Proof.
  intros (ip & f & -> & D & F & _) H. apply in_app_iff in H. unfold all_digits in *. destruct H as [H | H]; [rewrite Forall_forall in D; now apply (D _ H)|].
  destruct F as [-> | (ds & d & -> & DF & _)]; [destruct H|]. destruct H as [H | H]; [discriminate|]. unfold all_digits in DF; rewrite Forall_forall in DF; now apply (DF _ H).
Qed.
Lemma pointed_no_plus fp : all_digits fp -> ~ In "+"%char (pointed fp).
Proof.
  intros D H. assert (K : ~ In "+"%char fp) by (intros X; unfold all_digits in D; apply (proj1 (Forall_forall _ _) D _ X); reflexivity). destruct fp as [| c r]; cbn in H; [exact H|].
  destruct H as [H | H]; [discriminate | now apply K].
Qed.
Lemma scientific_plus u neg m e : scientific u -> denotes (minus neg ++ u) neg m e -> (dec m e < dec 1 (-4))%Q \/ (dec 1 6 <= dec m e)%Q -> (In "+"%char u <-> (dec 1 6 <= dec m e)%Q).
Proof.
  intros S D R. destruct (scientific_parts u S) as (c & fp & s & xs & -> & C & N & DF & _ & SS & X & _ & DN).
  destruct (denotes_fun _ _ _ _ _ _ _ D (DN neg)) as (_ & -> & ->). clear D DN. set (x := if ceqb s "-" then - value_of xs else value_of xs) in *.
  assert (VX := value_bound _ X). destruct VX as [VX _].
  assert (P : In "+"%char (c :: pointed fp ++ lit "e" ++ s :: xs) <-> s = "+"%char).
  { split; [|intros ->; right; apply in_app_iff; right; right; now left]. intros [H | H]; [subst c; now destruct C|]. apply in_app_iff in H. destruct H as [H | [H | [H | H]]]; [now apply pointed_no_plus in H | discriminate | exact H |].
    exfalso. unfold all_digits in X. rewrite Forall_forall in X. now apply (X _ H). }
  rewrite P. clear P. assert (exists n, 4 <= n /\ 0 <= x + n /\ 0 <= x - Z.of_nat (length fp) + n) as (n & n0 & n2 & n1) by (exists (4 + Z.abs x + Z.of_nat (length fp)); lia). destruct (leading_decade c fp x n C N DF n1) as (K1 & K2).
  split.
  - intros ->. change (ceqb "+" "-") with false in x. cbn iota in x. destruct R as [R | R]; [exfalso | exact R]. apply Qlt_not_le in R. apply R.
    rewrite (compare_dec n); [|lia | lia | exact n1]. rewrite Z.mul_1_l. apply Z.le_trans with (10 ^ (x + n)); [|exact K1]. apply Z.pow_le_mono_r; [lia|]. subst x. lia.
  - intros R'. destruct SS as [-> | ->]; [reflexivity | exfalso]. change (ceqb "-" "-") with true in x. cbn iota in x. rewrite (compare_dec n) in R'; [|lia | lia | exact n1]. rewrite Z.mul_1_l in R'.
    assert (Q := Z.le_lt_trans _ _ _ R' K2). apply Z.pow_lt_mono_r_iff in Q; [subst x; lia | lia | subst x; lia].
Qed.
Lemma canonical_plus t neg m e : canonical t neg m e -> (In "+"%char t <-> (dec 1 6 <= dec m e)%Q).
Proof.
  intros (D & _ & u & -> & P & S). assert (M : In "+"%char (minus neg ++ u) <-> In "+"%char u). { destruct neg; cbn; [|tauto]. split; [intros [H | H]; [discriminate | exact H] | auto]. }
  rewrite M. clear M. destruct (Qlt_le_dec (dec m e) (dec 1 (-4))) as [A | A]; [apply (scientific_plus u neg); auto|]. destruct (Qlt_le_dec (dec m e) (dec 1 6)) as [B | B].
  - split; [intros H; now apply plain_no_plus in H; auto|]. intros H. now apply Qlt_not_le in B.
  - apply (scientific_plus u neg); auto.
Qed.
Lemma canonical_cases t neg m e : canonical t neg m e -> exists u, t = minus neg ++ u /\ (plain u \/ scientific u).
Proof.
  intros (_ & _ & u & -> & P & S). exists u. split; [reflexivity|]. destruct (Qlt_le_dec (dec m e) (dec 1 (-4))) as [A | A]; [auto|]. destruct (Qlt_le_dec (dec m e) (dec 1 6)) as [B | B]; auto.
Qed.
Lemma scientific_head u : scientific u -> exists c t, u = c :: t /\ digit c.
Proof. intros (c & f & s & xs & -> & C & _). eauto. Qed.
Lemma printed_number t neg m e q : canonical t neg m e -> ends_number q -> (~ In "+"%char t -> number (t ++ q) t q) /\ (In "+"%char t -> forall l q', ~ number (t ++ q) l q').
Proof.
  intros Ct E. destruct (canonical_cases t neg m e Ct) as (u & -> & U). assert (M : In "+"%char (minus neg ++ u) <-> In "+"%char u). { destruct neg; cbn; [|tauto]. split; [intros [H | H]; [discriminate | exact H] | auto]. }
  rewrite M. split; intros P.
  - apply minus_number. destruct U as [U | U]; [now apply plain_number | now apply scientific_small].
  - destruct U as [U | U]; [now apply plain_no_plus in U|]. apply minus_none; [now apply scientific_head|]. intros l q'. now apply scientific_large.
Qed.
(** A number that is printed is read if it has no plus. *)
Lemma read_printed other neg z p q : is_double z -> 0 <= z -> ends_number q -> exists t, as_string_double (Num neg z) = Ok t /\
  (z < 1999999 * 2 ^ 1073 -> read_double_value other (p ++ t ++ q) (slen p) = Ok (true, slen p + slen t, as_double other t)) /\
  (1999999 * 2 ^ 1073 <= z -> read_double_value other (p ++ t ++ q) (slen p) = Ok (false, slen p, Num false 0)).
Proof.
  intros D Z0 E. assert (OK : forall t, number (t ++ q) t q -> read_double_value other (p ++ t ++ q) (slen p) = Ok (true, slen p + slen t, as_double other t)).
  { intros t N. unfold read_double_value. now rewrite (proj1 (read_double_spec p (t ++ q)) t q N). }
  destruct (Z.eq_dec z 0) as [-> | NZ].
  { exists (minus neg ++ lit "0"). split; [apply (special_text other)|]. split; [|intros H; exfalso; clear -H; assert (X := two_pos 1073 ltac:(lia)); lia]. intros _. apply OK, minus_number, plain_number; [|exact E].
    exists (lit "0"), []. split; [reflexivity|]. split; [repeat constructor; discriminate|]. split; [now left | now left]. }
  assert (P : 0 < z) by lia. destruct (printed_text neg z 64 D P room64) as (t & m & e & T & _ & Ct & CS). exists t. split; [exact T|]. destruct (printed_number t neg m e q Ct E) as (N1 & N2).
  assert (DP := Ct). destruct DP as (DP & _). assert (H := canonical_plus t neg m e Ct). split; intros B.
  - apply OK, N1. rewrite H. intros G. destruct CS as (_ & CS & _). specialize (CS 999999 0 ltac:(lia)). clear -B G CS. assert (V : (val z < 1999999 # 2)%Q).
    { unfold val, Qlt. cbn [Qnum Qden]. rewrite Z2Pos.id by apply one_pos. change one with (2 ^ (1073 + 1)). rewrite Z.pow_add_r by lia. change (2 ^ 1) with 2. lia. }
    assert (A : (dec 999999 0 == 999999 # 1)%Q) by reflexivity. assert (C : (dec 1 6 == 1000000 # 1)%Q) by reflexivity. rewrite C in G. unfold distance in CS. rewrite A in CS. clear A C B. revert CS. apply Qabs_case; apply Qabs_case; intros; Lqa.lra.
  - apply read_none, N2. apply H. apply Qle_trans with (dec 1 6); [apply Qle_refl|].
    apply (printed_order neg (1999999 * 2 ^ 1073) z (minus neg ++ lit "1e+06") t 1 6 m e).
    + exists 1999999, 1073. split; [reflexivity|]. split; [lia | reflexivity].
    + exact D.
    + assert (X := two_pos 1073 ltac:(lia)). lia.
    + exact B.
    + destruct neg; vm_compute; reflexivity.
    + exact T.
    + exists (minus neg), (lit "1"), [], [], (lit "e+06"), 6. split; [reflexivity|]. split; [destruct neg; auto|]. split; [right; auto|]. split; [reflexivity|]. split; [|reflexivity].
      right. exists "e"%char, (lit "+"), (lit "06"), 6. auto 10.
    + exact DP.
Qed.
(** There is only one closest number with six digits. *)
Lemma between_closer v a b c : (distance v a == distance v b)%Q -> (a < c)%Q -> (c < b)%Q -> (distance v c < distance v a)%Q.
Proof. unfold distance. intros E A B. revert E. apply Qabs_case; apply Qabs_case; intros; (apply Qabs_case; intros); Lqa.lra. Qed.
Lemma closest_six_not z m e m' e' : closest_six z m e -> closest_six z m' e' -> ~ (dec m e < dec m' e')%Q.
Proof.
  intros ((n & k & NB & NE) & C & T) ((n' & k' & NB' & NE') & C' & T') L.
  assert (E : (distance (val z) (dec m e) == distance (val z) (dec m' e'))%Q).
  { apply Qle_antisym; [rewrite <- (distance_proper _ _ _ _ _ NE'); auto | rewrite <- (distance_proper _ _ _ _ _ NE); auto]. }
  destruct (T n' k' NB') as (h & j & HB & HE); [rewrite (distance_proper _ _ _ _ _ NE'); now rewrite E | intros X; rewrite NE' in X; rewrite X in L; now apply Qlt_irrefl in L|].
  destruct (T' n k NB) as (h' & j' & HB' & HE'); [rewrite (distance_proper _ _ _ _ _ NE); now rewrite E | intros X; rewrite NE in X; rewrite X in L; now apply Qlt_irrefl in L|].
  assert (A : (dec m e < dec (2 * h + 1) j)%Q).
  { rewrite <- HE. apply Qnot_le_lt. intros X. rewrite (compare_dec (Z.abs j)) in X by lia. assert (P := ten_pos (j + Z.abs j) ltac:(lia)). nia. }
  destruct (Qlt_le_dec (dec (2 * h + 1) j) (dec m' e')) as [B | B].
  - assert (X := between_closer _ _ _ _ E A B). apply Qlt_not_le in X. apply X. apply C. lia.
  - rewrite <- HE' in B, L. rewrite <- HE in L. clear - B L HB HB'. set (s := Z.abs j + Z.abs j'). rewrite (compare_dec s) in B by lia. apply Qlt_not_le in L. rewrite (compare_dec s) in L by lia.
    destruct (Z.le_gt_cases j j') as [J | J].
    + rewrite (ten_split (j + s) (j' + s)) in B, L by lia. replace (j' + s - (j + s)) with (j' - j) in * by lia. assert (P := ten_pos (j + s) ltac:(lia)). set (d := 10 ^ (j + s)) in *. assert (Q := ten_pos (j' - j) ltac:(lia)). set (w := 10 ^ (j' - j)) in *. clearbody d w.
      assert (2 * h < 2 * h' * w) by nia. assert (2 * h' * w <= 2 * h + 1) by nia. clear - H H0. assert (X : 2 * (h' * w) = 2 * h + 1) by lia. lia.
    + rewrite (ten_split (j' + s) (j + s)) in L by lia. replace (j + s - (j' + s)) with (j - j') in * by lia. assert (P := ten_pos (j' + s) ltac:(lia)). set (d := 10 ^ (j' + s)) in *. assert (Q : 10 ^ 1 <= 10 ^ (j - j')) by (apply Z.pow_le_mono_r; lia). change (10 ^ 1) with 10 in Q. set (w := 10 ^ (j - j')) in *. clearbody d w. clear B.
      apply L. assert (2 * h' <= 2 * h * w) by nia. nia.
Qed.
Lemma closest_six_unique z m e m' e' : closest_six z m e -> closest_six z m' e' -> (dec m e == dec m' e')%Q.
Proof. intros A B. destruct (Q_dec (dec m e) (dec m' e')) as [[X | X] | X]; [| | exact X]; exfalso; eapply closest_six_not; [exact A | exact B | exact X | exact B | exact A | exact X]. Qed.
(** ** Lengths *)
Lemma length_read other num u neg m e : decimal num -> unit_text u -> denotes num neg m e -> exists x, meant neg m e x /\ length_value other (num ++ u) = Ok (x, u).
Proof.
  intros D U N. exists (as_double other num). split; [now apply read_meant|]. unfold length_value. now rewrite (parse_length_decimal num u D U).
Qed.
Lemma plain_decimal neg t : plain t -> decimal (minus neg ++ t).
Proof.
  intros P. split; [now apply plain_literal|]. destruct P as (ip & f & -> & D & F & _). intros H. assert (K : ~ In "e"%char (ip ++ f)).
  { intros X. apply in_app_iff in X. unfold all_digits in *. destruct X as [X | X]; [rewrite Forall_forall in D; now apply (D _ X)|].
    destruct F as [-> | (ds & d & -> & DF & _)]; [destruct X|]. destruct X as [X | X]; [discriminate|]. unfold all_digits in DF; rewrite Forall_forall in DF; now apply (DF _ X). }
  destruct neg; [destruct H as [H | H]; [discriminate|]|]; now apply K.
Qed.
Lemma length_printed other neg z t m e u : is_double z -> 0 < z -> closest_six z m e -> as_string_double (Num neg z) = Ok t -> unit_text u ->
  ((dec 1 (-4) <= dec m e)%Q /\ (dec m e < dec 1 6)%Q -> length_value other (t ++ u) = Ok (as_double other t, u))
  /\ ((dec m e < dec 1 (-4))%Q \/ (dec 1 6 <= dec m e)%Q -> length_value other (t ++ u) = Ok (Num false 0, lit "error")).
Proof.
  intros D P CS T U. destruct (printed_text neg z 64 D P room64) as (t' & m' & e' & T' & _ & Ct & CS'). unfold as_string_double in T. rewrite T in T'. injection T' as <-.
  assert (EQ : (dec m e == dec m' e')%Q) by now apply (closest_six_unique z). rewrite EQ. clear EQ CS CS'. destruct Ct as (_ & _ & v & -> & PL & SC). split; intros R.
  - unfold length_value. now rewrite (parse_length_decimal _ u (plain_decimal neg v (PL R)) U).
  - unfold length_value. rewrite (parse_length_exponent _ u (scientific_literal neg v (SC R))); [reflexivity|]. destruct (SC R) as (c & f & s & xs & -> & _). apply in_app_iff. right. right. apply in_app_iff. right. now left.
Qed.
