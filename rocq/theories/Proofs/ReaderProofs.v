From Verif Require Import Base Model.Int Model.Chars Model.Str Model.NumStr Model.Reader Model.Search
  Spec.Search Spec.Numeral Spec.Reader Proofs.SearchProofs Proofs.TextProofs Proofs.StrProofs Proofs.NumStrProofs.
Local Open Scope Z_scope.

Lemma slen_app p q : slen (p ++ q) = slen p + slen q.
Proof. unfold slen. rewrite app_length. lia. Qed.
Lemma slen_cons c q : slen (c :: q) = 1 + slen q.
Proof. unfold slen. simpl length. lia. Qed.
Lemma slen_nonneg p : 0 <= slen p.
Proof. unfold slen. lia. Qed.
Lemma slen_nil : slen [] = 0.
Proof. reflexivity. Qed.
Lemma len_slen s : len s = slen s.
Proof. reflexivity. Qed.
Lemma getZ_mid p c q k : k = slen p -> getZ (p ++ c :: q) k = Ok c.
Proof. apply getZ_at. Qed.
Lemma substr_mid p l q i j : i = slen p -> j = slen p + slen l -> substr (p ++ l ++ q) i j = l.
Proof.
  intros -> ->. unfold slen. rewrite <- Nat2Z.inj_add. rewrite substr_nat by (rewrite !app_length; lia).
  rewrite skipn_app, skipn_all, Nat.sub_diag. cbn [skipn app].
  replace (length p + length l - length p)%nat with (length l) by lia.
  rewrite firstn_app, firstn_all, Nat.sub_diag. cbn. apply app_nil_r.
Qed.

Definition stops (P : ascii -> bool) (q : str) : Prop := forall c t, q = c :: t -> P c = false.
Definition span_of (P : ascii -> bool) (r l q : str) : Prop := r = l ++ q /\ Forall (fun c => P c = true) l /\ stops P q.
Lemma span_longest P Q r l q : (forall c, P c = true <-> Q c) -> span_of P r l q <-> longest Q r l q.
Proof.
  intros H. unfold span_of, longest, stops. rewrite !Forall_forall. split; intros (E & F & S); (split; [assumption|split]).
  - intros c I. now apply H, F.
  - intros c t Et Qc. apply H in Qc. rewrite (S c t Et) in Qc. discriminate.
  - intros c I. now apply H, F.
  - intros c t Et. apply not_true_is_false. intros Pc. apply H in Pc. now apply (S c t Et).
Qed.
Lemma longest_unique P r l q l' q' : longest P r l q -> longest P r l' q' -> l = l' /\ q = q'.
Proof.
  intros (-> & F & S). revert l' q'. induction l as [|c l IH]; intros l' q' (E & F' & S').
  - destruct l' as [|d l']; [auto|]. exfalso. simpl in E. apply (S d (l' ++ q') E). now inversion F'.
  - inversion F as [|? ? Fc Fl]; subst. destruct l' as [|d l'].
    + exfalso. simpl in E. apply (S' c (l ++ q)); [now rewrite <- E|assumption].
    + simpl in E. injection E as -> E. inversion F' as [|? ? Fd Fl']; subst.
      destruct (IH Fl l' q') as (-> & ->); [split; [assumption|split; assumption]|auto].
Qed.

Lemma adv_while_spec P : forall r p fuel, (length r < fuel)%nat -> exists l q,
  adv_while P fuel (p ++ r) (slen p) = Ok (slen p + slen l) /\ span_of P r l q.
Proof.
  induction r as [|c r IH]; intros p fuel H; (destruct fuel as [|fuel]; [lia|]); cbn [adv_while].
  - rewrite app_nil_r. change len with slen. replace (slen p <? slen p) with false by lia.
    exists [], []. rewrite slen_nil. split; [f_equal; lia|]. split; [reflexivity|]. split; [constructor|].
    intros c t E. discriminate.
  - change len with slen. rewrite slen_app, slen_cons. pose proof (slen_nonneg r).
    replace (slen p <? slen p + (1 + slen r)) with true by lia. rewrite getZ_mid by reflexivity. cbn [bind].
    destruct (P c) eqn:E.
    + simpl in H. destruct (IH (p ++ [c]) fuel ltac:(lia)) as (l & q & A & -> & F & S).
      rewrite <- app_assoc in A. cbn [app] in A. rewrite slen_app, slen_cons, slen_nil in A.
      replace (slen p + (1 + 0)) with (slen p + 1) in A by lia. exists (c :: l), q. split.
      * rewrite A. rewrite slen_cons. f_equal. lia.
      * split; [reflexivity|]. split; [now constructor|assumption].
    + exists [], (c :: r). rewrite slen_nil. split; [f_equal; lia|]. split; [reflexivity|]. split; [constructor|].
      intros d t D. now injection D as <- _.
Qed.
Lemma advance_while_spec P p r : exists l q,
  advance_while P (p ++ r) (slen p) = Ok (slen p + slen l) /\ span_of P r l q.
Proof. apply adv_while_spec. rewrite app_length. lia. Qed.

(** ** read *)
Lemma read_loop_spec t : forall p r,
  (exists q, r = t ++ q /\ read_loop (p ++ r) (slen p) t = Ok (Some (slen p + slen t)))
  \/ ((forall q, r <> t ++ q) /\ read_loop (p ++ r) (slen p) t = Ok None).
Proof.
  induction t as [|c t IH]; intros p r; cbn [read_loop].
  - left. exists r. split; [reflexivity|]. rewrite slen_nil. do 2 f_equal. lia.
  - destruct r as [|d r].
    + right. split; [discriminate|]. rewrite app_nil_r. unfold len, slen.
      now replace (Z.of_nat (length p) <=? Z.of_nat (length p)) with true by lia.
    + change len with slen. rewrite slen_app, slen_cons. pose proof (slen_nonneg r).
      replace (slen p + (1 + slen r) <=? slen p) with false by lia. rewrite getZ_mid by reflexivity. cbn [bind].
      destruct (ceqb d c) eqn:E.
      * apply ceqb_eq in E. subst d. destruct (IH (p ++ [c]) r) as [(q & -> & A)|(N & A)];
          rewrite <- app_assoc, slen_app, slen_cons, slen_nil in A; cbn [app] in A;
          replace (slen p + (1 + 0)) with (slen p + 1) in A by lia; rewrite A.
        -- left. exists q. split; [reflexivity|]. rewrite slen_cons. do 2 f_equal. lia.
        -- right. split; [|reflexivity]. intros q Q. injection Q as Q. now apply (N q).
      * apply ceqb_neq in E. right. split; [|reflexivity]. intros q Q. injection Q as Q _. congruence.
Qed.
Lemma read_spec p r t :
  (exists q, r = t ++ q /\ read (p ++ r) (slen p) t = Ok (true, slen p + slen t))
  \/ ((forall q, r <> t ++ q) /\ read (p ++ r) (slen p) t = Ok (false, slen p)).
Proof.
  unfold read. destruct (read_loop_spec t p r) as [(q & -> & ->)|(N & ->)]; cbn [bind]; eauto.
Qed.

(** ** read_line, skip_line *)
Lemma notin_forall (c : ascii) l : Forall (fun x => negb (ceqb x c) = true) l -> ~ In c l.
Proof. intros F I. rewrite Forall_forall in F. specialize (F c I). now rewrite ceqb_refl in F. Qed.
Lemma adv_line p r : exists l q, advance_while (fun c => negb (ceqb c (chr 10))) (p ++ r) (slen p)
  = Ok (slen p + slen l) /\ r = l ++ q /\ ~ In (chr 10) l /\ (q = [] \/ exists q', q = chr 10 :: q').
Proof.
  destruct (advance_while_spec (fun c => negb (ceqb c (chr 10))) p r) as (l & q & A & E & F & S).
  exists l, q. split; [assumption|]. split; [assumption|]. split; [now apply notin_forall|].
  destruct q as [|c q]; [now left|]. right. exists q. specialize (S c q eq_refl). apply negb_false_iff, ceqb_eq in S. now subst.
Qed.
Lemma read_line_spec p r :
  (exists l q, r = l ++ chr 10 :: q /\ ~ In (chr 10) l
     /\ read_line (p ++ r) (slen p) = Ok (true, slen p + slen l + 1, l)
     /\ skip_line (p ++ r) (slen p) = Ok (slen p + slen l + 1))
  \/ (~ In (chr 10) r /\ read_line (p ++ r) (slen p) = Ok (false, slen (p ++ r), r)
      /\ skip_line (p ++ r) (slen p) = Ok (slen (p ++ r))).
Proof.
  unfold read_line, skip_line. destruct (adv_line p r) as (l & q & -> & -> & N & [->|(q' & ->)]); cbn [bind];
    change len with slen.
  - right. rewrite app_nil_r. split; [assumption|]. rewrite slen_app.
    replace (slen p + slen l <? slen p + slen l) with false by lia.
    pose proof (substr_mid p l [] _ _ eq_refl eq_refl) as E. rewrite app_nil_r in E. rewrite E. split; reflexivity.
  - left. exists l, q'. split; [reflexivity|]. split; [assumption|].
    rewrite !slen_app, slen_cons. pose proof (slen_nonneg q').
    replace (slen p + slen l <? slen p + (slen l + (1 + slen q'))) with true by lia.
    rewrite substr_mid by reflexivity. split; reflexivity.
Qed.

(** ** read_word, skip_spaces, skip_whitespace, is_whitespace *)
Lemma alpha_letter c : is_alpha c = true <-> letter c.
Proof.
  assert (A : Bool.eqb (is_alpha c) (((65 <=? code c) && (code c <=? 90)) || ((97 <=? code c) && (code c <=? 122))) = true)
    by (revert c; apply byte_sweep; vm_compute; reflexivity).
  apply eqb_prop in A. rewrite A. unfold letter. lia.
Qed.
Lemma digit_digit c : is_digit c = true <-> digit c.
Proof.
  assert (A : Bool.eqb (is_digit c) (match dec_digit_value c with Some _ => true | None => false end) = true)
    by (revert c; apply byte_sweep; vm_compute; reflexivity).
  apply eqb_prop in A. rewrite A. unfold digit. destruct (dec_digit_value c); split; congruence.
Qed.
Lemma read_word_spec p r : exists l q, longest letter r l q
  /\ read_word (p ++ r) (slen p) = Ok (match l with [] => false | _ => true end, slen p + slen l, l).
Proof.
  unfold read_word. destruct (advance_while_spec is_alpha p r) as (l & q & -> & S). exists l, q.
  pose proof S as (E & _). apply (span_longest _ letter) in S; [|apply alpha_letter]. split; [assumption|].
  cbn [bind]. subst r. rewrite substr_mid by reflexivity. do 3 f_equal.
  destruct l; [rewrite slen_nil; lia|rewrite slen_cons; pose proof (slen_nonneg l); lia].
Qed.
Lemma white_iff c : is_white c = true <-> In c [" "%char; chr 9; chr 10].
Proof.
  unfold is_white. rewrite !orb_true_iff, !ceqb_eq. simpl. intuition congruence.
Qed.
Lemma skip_spaces_spec p r :
  (exists l q, longest (fun c => c = " "%char \/ c = chr 9) r l q
     /\ skip_spaces (p ++ r) (slen p) = Ok (slen p + slen l))
  /\ (exists l q, longest (fun c => In c [" "%char; chr 9; chr 10]) r l q
     /\ skip_whitespace (p ++ r) (slen p) = Ok (slen p + slen l)).
Proof.
  unfold skip_spaces, skip_whitespace. split.
  - destruct (advance_while_spec (fun c => ceqb c " " || ceqb c (chr 9)) p r) as (l & q & -> & S). exists l, q.
    split; [|reflexivity]. revert S. apply span_longest. intros c. rewrite orb_true_iff, !ceqb_eq. tauto.
  - destruct (advance_while_spec is_white p r) as (l & q & -> & S). exists l, q.
    split; [|reflexivity]. revert S. apply span_longest, white_iff.
Qed.
Lemma is_whitespace_spec s : is_whitespace s = true <-> Forall (fun c => In c [" "%char; chr 9; chr 10]) s.
Proof.
  unfold is_whitespace. rewrite forallb_forall, Forall_forall. split; intros H c I; apply white_iff; auto.
Qed.

(** ** skip_symbol *)
Lemma symbol_loop_spec : forall r p c fuel, (length r < fuel)%nat -> c <> ">"%char ->
  (exists l q, r = l ++ ">"%char :: q /\ ~ In ">"%char l
     /\ symbol_loop fuel (p ++ c :: r) (slen p + 1) = Ok (slen p + slen l + 2))
  \/ (~ In ">"%char r /\ symbol_loop fuel (p ++ c :: r) (slen p + 1) = Ok (slen (p ++ c :: r))).
Proof.
  induction r as [|d r IH]; intros p c fuel H C; (destruct fuel as [|fuel]; [lia|]); cbn [symbol_loop];
    change len with slen; rewrite !slen_app, !slen_cons, ?slen_nil.
  - replace (slen p + 1 <? slen p + (1 + 0)) with false by lia. right. split; [auto|]. f_equal.
  - pose proof (slen_nonneg r). replace (slen p + 1 <? slen p + (1 + (1 + slen r))) with true by lia.
    rewrite getZ_mid by lia. cbn [bind]. apply ceqb_neq in C. rewrite C.
    replace (slen p + 1 + 1) with (slen (p ++ [c]) + 1) by (rewrite slen_app, slen_cons, slen_nil; lia).
    change (p ++ c :: d :: r) with (p ++ [c] ++ d :: r). rewrite app_assoc.
    simpl in H. destruct (ceqb d ">") eqn:D.
    + apply ceqb_eq in D. subst d. left. exists [], r. split; [reflexivity|]. split; [auto|].
      destruct fuel as [|fuel]; [lia|]. cbn [symbol_loop]. change len with slen.
      rewrite !slen_app, !slen_cons, !slen_nil.
      destruct (slen p + (1 + 0) + 1 <? slen p + (1 + 0) + (1 + slen r)) eqn:E.
      * rewrite getZ_mid by (rewrite slen_app, slen_cons, slen_nil; lia). cbn [bind]. rewrite ceqb_refl. f_equal. lia.
      * f_equal. lia.
    + apply ceqb_neq in D. destruct (IH (p ++ [c]) d fuel ltac:(lia) D) as [(l & q & -> & N & ->)|(N & ->)].
      * left. exists (d :: l), q. split; [reflexivity|]. split; [simpl; intuition congruence|]. f_equal.
        rewrite slen_app, !slen_cons, slen_nil. lia.
      * right. split; [simpl; intuition congruence|]. f_equal. rewrite !slen_app, !slen_cons, slen_nil. lia.
Qed.
Lemma skip_symbol_spec p r :
  match r with
  | [] => skip_symbol (p ++ r) (slen p) = Ok (slen p)
  | c :: r' =>
      (c <> "<"%char /\ skip_symbol (p ++ r) (slen p) = Ok (slen p + 1))
      \/ (c = "<"%char /\
          ((exists l q, r' = l ++ ">"%char :: q /\ ~ In ">"%char l
              /\ skip_symbol (p ++ r) (slen p) = Ok (slen p + slen l + 2))
           \/ (~ In ">"%char r' /\ skip_symbol (p ++ r) (slen p) = Ok (slen (p ++ r)))))
  end.
Proof.
  unfold skip_symbol. destruct r as [|c r].
  - rewrite app_nil_r. change len with slen. now replace (slen p <? slen p) with false by lia.
  - change len with slen. rewrite slen_app, slen_cons. pose proof (slen_nonneg r).
    replace (slen p <? slen p + (1 + slen r)) with true by lia. rewrite getZ_mid by reflexivity. cbn [bind].
    destruct (ceqb c "<") eqn:E.
    + apply ceqb_eq in E. subst c. right. split; [reflexivity|].
      destruct (symbol_loop_spec r p "<"%char (S (length (p ++ "<"%char :: r)))) as [H1|(H1 & H2)].
      * rewrite app_length. simpl. lia.
      * discriminate.
      * now left.
      * right. split; [assumption|]. rewrite H2, slen_app, slen_cons. reflexivity.
    + apply ceqb_neq in E. now left.
Qed.

(** ** read_int *)
Lemma minus_literal_value l : minus_literal l -> int_literal l.
Proof. intros (sg & ds & E & S & N & D). exists sg, ds. split; [assumption|]. split; [tauto|]. split; assumption. Qed.
Lemma read_int_spec p r :
  (exists l q v, r = l ++ q /\ minus_literal l /\ (forall c t, q = c :: t -> ~ digit c)
     /\ int_literal_value l = Some v
     /\ read_int (p ++ r) (slen p)
        = if Z.abs v <=? int_max then Ok (true, slen p + slen l, v) else UB)
  \/ ((forall l q, r = l ++ q -> ~ minus_literal l) /\ read_int (p ++ r) (slen p) = Ok (false, slen p, 0)).
Proof.
  unfold read_int. destruct r as [|c r].
  { right. split.
    - intros l q E (sg & ds & -> & _ & N & _). destruct sg; destruct ds; try discriminate; congruence.
    - rewrite app_nil_r. change len with slen. now rewrite Z.eqb_refl. }
  change len with slen. rewrite slen_app, slen_cons. pose proof (slen_nonneg r).
  replace (slen p =? slen p + (1 + slen r)) with false by lia. rewrite getZ_mid by reflexivity. cbn [bind].
  (* the successful end *)
  assert (Fin : forall sg d r', (sg = [] \/ sg = lit "-") -> c :: r = sg ++ d :: r' -> digit d ->
    exists l q v, c :: r = l ++ q /\ minus_literal l /\ (forall c t, q = c :: t -> ~ digit c)
     /\ int_literal_value l = Some v
     /\ (let* j := advance_while is_digit (p ++ c :: r) (slen p + slen sg) in
         let* v := as_int (substr (p ++ c :: r) (slen p) j) in Ok (true, j, v))
        = if Z.abs v <=? int_max then Ok (true, slen p + slen l, v) else UB).
  { intros sg d r' Hs E D. rewrite E. rewrite app_assoc, <- slen_app.
    destruct (advance_while_spec is_digit (p ++ sg) (d :: r')) as (ds & q & -> & S). cbn [bind].
    apply (span_longest _ digit) in S; [|apply digit_digit]. destruct S as (Ed & F & St).
    assert (Nd : ds <> []) by (intros ->; simpl in Ed; now apply (St d r' (eq_sym Ed))).
    assert (ML : minus_literal (sg ++ ds)) by (exists sg, ds; auto).
    destruct (is_int_as_int _ (minus_literal_value _ ML)) as (_ & v & V & A).
    exists (sg ++ ds), q, v. split; [now rewrite Ed, app_assoc|]. split; [assumption|]. split; [assumption|].
    split; [assumption|]. rewrite Ed, <- app_assoc, (app_assoc sg ds q).
    rewrite substr_mid; [|reflexivity|rewrite !slen_app; lia]. rewrite A.
    destruct (Z.abs v <=? int_max); cbn [bind]; [|reflexivity]. rewrite !slen_app. do 3 f_equal. lia. }
  destruct (ceqb c "-") eqn:C.
  - apply ceqb_eq in C. subst c. destruct r as [|d r].
    + rewrite slen_nil. replace (slen p + 1 =? slen p + (1 + 0)) with true by lia. right. split; [|reflexivity].
      intros l q E (sg & ds & -> & Hs & N & D). destruct Hs as [->| ->].
      * destruct ds as [|x ds]; [congruence|]. injection E as <- _. inversion D as [|? ? D1 _]. now apply D1.
      * destruct ds as [|x ds]; [congruence|]. discriminate.
    + rewrite slen_cons. pose proof (slen_nonneg r).
      replace (slen p + 1 =? slen p + (1 + (1 + slen r))) with false by lia.
      replace (getZ (p ++ "-"%char :: d :: r) (slen p + 1)) with (Ok d).
      2:{ symmetry. change ("-"%char :: d :: r) with (["-"%char] ++ d :: r). rewrite app_assoc. apply getZ_mid.
          rewrite slen_app, slen_cons, slen_nil. lia. }
      cbn [bind]. destruct (is_digit d) eqn:D; cbn [negb].
      * left. apply (Fin (lit "-") d r); [now right|reflexivity|now apply digit_digit].
      * right. split; [|reflexivity]. intros l q E (sg & ds & -> & Hs & N & Dg).
        assert (ND : ~ digit d) by (intros Dd; apply digit_digit in Dd; congruence).
        destruct Hs as [->| ->]; (destruct ds as [|x ds]; [congruence|]); injection E as E1; inversion Dg as [|? ? D1 _]; subst.
        -- now apply D1.
        -- now apply ND.
  - apply ceqb_neq in C. destruct (is_digit c) eqn:D; cbn [negb].
    + left. pose proof (Fin [] c r) as G. rewrite slen_nil, Z.add_0_r in G.
      apply G; [now left|reflexivity|now apply digit_digit].
    + right. split; [|reflexivity]. intros l q E (sg & ds & -> & Hs & N & Dg).
      assert (ND : ~ digit c) by (intros Dd; apply digit_digit in Dd; congruence).
      destruct Hs as [->| ->]; (destruct ds as [|x ds]; [congruence|]).
      * injection E as -> _. inversion Dg. contradiction.
      * injection E as -> _. congruence.
Qed.

(** ** read_double *)
Lemma point_unique r l q l' q' : point r l q -> point r l' q' -> l = l' /\ q = q'.
Proof.
  intros [u N|ds u v L] H'; inversion H'; subst; auto.
  - exfalso. now apply (N "."%char r0).
  - exfalso. match goal with N : forall c t, _ -> _ |- _ => now apply (N "."%char u) end.
  - match goal with L' : longest _ _ ds0 _ |- _ => destruct (longest_unique _ _ _ _ _ _ L L') as (-> & ->) end. auto.
Qed.
Lemma digit_not c : digit c -> c <> "-"%char /\ c <> "."%char.
Proof. intros D. split; intros ->; now apply D. Qed.
Lemma longest_head r ds q : longest digit r ds q -> ds <> [] -> exists c r', r = c :: r' /\ digit c.
Proof.
  intros (-> & F & _) N. destruct ds as [|c ds]; [congruence|]. inversion F; subst. exists c, (ds ++ q). auto.
Qed.
Lemma exponent_unique r l q l' q' : exponent r l q -> exponent r l' q' -> l = l' /\ q = q'.
Proof.
  intros [u N|e sg ds u v He Hs Hn L] H'; inversion H' as [u' N' E1 E2 E3|e' sg' ds' u' v' He' Hs' Hn' L' E1 E2]; subst; auto.
  - exfalso. destruct (N e' _ eq_refl). destruct He'; congruence.
  - exfalso. destruct (N' e _ eq_refl). destruct He; congruence.
  - destruct (longest_head _ _ _ L Hn) as (c & t & -> & D). destruct (longest_head _ _ _ L' Hn') as (c' & t' & -> & D').
    destruct (digit_not _ D), (digit_not _ D').
    assert (sg = sg' /\ c :: t = c' :: t') as (-> & E).
    { destruct Hs as [-> | ->], Hs' as [-> | ->]; cbn in *; auto; match goal with E : _ :: _ = _ :: _ |- _ => injection E; intros; subst; auto; congruence end. }
    rewrite E in L. destruct (longest_unique _ _ _ _ _ _ L L') as (-> & ->). auto.
Qed.
Lemma unsigned_unique r l q l' q' : unsigned_number r l q -> unsigned_number r l' q' -> l = l' /\ q = q'.
Proof.
  intros [u ds q1 f q2 e q3 L P _ X] H'. inversion H' as [? ds' q1' f' q2' e' q3' L' P' _ X']; subst.
  destruct (longest_unique _ _ _ _ _ _ L L') as (-> & ->).
  destruct (point_unique _ _ _ _ _ P P') as (-> & ->). destruct (exponent_unique _ _ _ _ _ X X') as (-> & ->). auto.
Qed.
Lemma unsigned_head r l q : unsigned_number r l q -> exists c t, r = c :: t /\ (digit c \/ c = "."%char).
Proof.
  intros [u ds q1 f q2 e q3 (-> & F & _) P N _]. destruct ds as [|c ds].
  - destruct N as [N|N]; [congruence|]. inversion P; subst; [congruence|]. eexists _, _. split; [reflexivity|]. now right.
  - inversion F; subst. eexists _, _. split; [reflexivity|]. now left.
Qed.
Lemma number_unique r l q l' q' : number r l q -> number r l' q' -> l = l' /\ q = q'.
Proof.
  intros [u m t H|u m t H] H'; inversion H' as [u' m' t' H2|u' m' t' H2]; subst.
  - eauto using unsigned_unique.
  - exfalso. destruct (unsigned_head _ _ _ H) as (c & v & E & [D|D]); injection E as <- _; [now apply D|discriminate].
  - exfalso. destruct (unsigned_head _ _ _ H2) as (c & v & E & [D|D]); injection E as <- _; [now apply D|discriminate].
  - destruct (unsigned_unique _ _ _ _ _ H H2) as (-> & ->). auto.
Qed.

Lemma skip_one_spec P p r :
  (exists c r', r = c :: r' /\ P c = true /\ skip_one P (p ++ r) (slen p) = Ok (slen p + 1))
  \/ (stops P r /\ skip_one P (p ++ r) (slen p) = Ok (slen p)).
Proof.
  unfold skip_one. destruct r as [|c r].
  - right. rewrite app_nil_r. change len with slen. replace (slen p <? slen p) with false by lia.
    split; [intros c t E; discriminate|reflexivity].
  - change len with slen. rewrite slen_app, slen_cons. pose proof (slen_nonneg r).
    replace (slen p <? slen p + (1 + slen r)) with true by lia. rewrite getZ_mid by reflexivity. cbn [bind].
    destruct (P c) eqn:E; [left; eauto|right]. split; [|reflexivity]. intros d t D. now injection D as <- _.
Qed.
Definition rd_exp (s : str) (i d : Z) : res (bool * Z * str) :=
  let* e := skip_one is_e s d in
  if e =? d then Ok (true, d, substr s i d)
  else
    let* f := skip_one (fun c => ceqb c "-") s e in
    if f =? len s then Ok (false, i, [])
    else let* x := getZ s f in
         if negb (is_digit x) then Ok (false, i, [])
         else let* g := advance_while is_digit s f in Ok (true, g, substr s i g).
Lemma is_e_iff c : is_e c = true <-> c = "e"%char \/ c = "E"%char.
Proof. unfold is_e. now rewrite orb_true_iff, !ceqb_eq. Qed.
Lemma rd_exp_spec p l r :
  (exists e q, exponent r e q
     /\ rd_exp (p ++ l ++ r) (slen p) (slen (p ++ l)) = Ok (true, slen p + slen (l ++ e), l ++ e))
  \/ ((forall e q, ~ exponent r e q) /\ rd_exp (p ++ l ++ r) (slen p) (slen (p ++ l)) = Ok (false, slen p, [])).
Proof.
  unfold rd_exp. rewrite app_assoc.
  destruct (skip_one_spec is_e (p ++ l) r) as [(c & r' & -> & E & ->)|(St & ->)]; cbn [bind].
  2:{ left. exists [], r. split.
      - constructor. intros c t ->. specialize (St c t eq_refl).
        split; intros ->; discriminate.
      - rewrite Z.eqb_refl, <- app_assoc, substr_mid, app_nil_r, slen_app; auto. now rewrite slen_app. }
  replace (slen (p ++ l) + 1 =? slen (p ++ l)) with false by lia. apply is_e_iff in E.
  replace ((p ++ l) ++ c :: r') with ((p ++ l ++ [c]) ++ r') by (rewrite <- !app_assoc; reflexivity).
  replace (slen (p ++ l) + 1) with (slen (p ++ l ++ [c])) by (rewrite !slen_app, slen_cons, slen_nil; lia).
  assert (Fin : forall sg u, (sg = [] \/ sg = lit "-") -> r' = sg ++ u -> (sg = [] -> forall d t, u = d :: t -> d <> "-"%char) ->
    (exists e q, exponent (c :: r') e q /\
       (if slen ((p ++ l ++ [c]) ++ sg) =? len ((p ++ l ++ [c]) ++ sg ++ u) then Ok (false, slen p, [])
        else let* x := getZ ((p ++ l ++ [c]) ++ sg ++ u) (slen ((p ++ l ++ [c]) ++ sg)) in
         if negb (is_digit x) then Ok (false, slen p, [])
         else let* g := advance_while is_digit ((p ++ l ++ [c]) ++ sg ++ u) (slen ((p ++ l ++ [c]) ++ sg)) in
           Ok (true, g, substr ((p ++ l ++ [c]) ++ sg ++ u) (slen p) g))
       = Ok (true, slen p + slen (l ++ e), l ++ e))
    \/ ((forall e q, ~ exponent (c :: r') e q) /\
       (if slen ((p ++ l ++ [c]) ++ sg) =? len ((p ++ l ++ [c]) ++ sg ++ u) then Ok (false, slen p, [])
        else let* x := getZ ((p ++ l ++ [c]) ++ sg ++ u) (slen ((p ++ l ++ [c]) ++ sg)) in
         if negb (is_digit x) then Ok (false, slen p, [])
         else let* g := advance_while is_digit ((p ++ l ++ [c]) ++ sg ++ u) (slen ((p ++ l ++ [c]) ++ sg)) in
           Ok (true, g, substr ((p ++ l ++ [c]) ++ sg ++ u) (slen p) g))
       = Ok (false, slen p, []))).
  { intros sg u Hs -> Hm. rewrite (app_assoc (p ++ l ++ [c]) sg u). set (w := (p ++ l ++ [c]) ++ sg). change len with slen.
    assert (No : (forall d t, u = d :: t -> ~ digit d) -> forall e q, ~ exponent (c :: sg ++ u) e q).
    { intros Nd e q X. remember (c :: sg ++ u) as z eqn:Ez. destruct X as [v N|e0 sg0 ds u0 v He Hs0 Hn L].
      - destruct (N c _ Ez). tauto.
      - destruct (longest_head _ _ _ L Hn) as (d & t & -> & D). destruct (digit_not _ D) as (D1 & _).
        assert (u = d :: t).
        { injection Ez as _ Ez. destruct Hs as [-> | ->], Hs0 as [-> | ->]; cbn in Ez |- *; try congruence.
          exfalso. now apply (Hm eq_refl "-"%char (d :: t)). }
        now apply (Nd d t). }
    destruct u as [|d u].
    { rewrite !app_nil_r, !Z.eqb_refl. right. split; [|reflexivity]. rewrite app_nil_r in No. apply No. discriminate. }
    rewrite (slen_app w (d :: u)), slen_cons. pose proof (slen_nonneg u).
    replace (slen w =? slen w + (1 + slen u)) with false by lia. rewrite getZ_mid by reflexivity. cbn [bind].
    destruct (is_digit d) eqn:D; cbn [negb].
    - left. destruct (advance_while_spec is_digit w (d :: u)) as (ds & q & -> & S). cbn [bind].
      apply (span_longest _ digit) in S; [|apply digit_digit]. exists (c :: sg ++ ds), q.
      assert (Nd : ds <> []).
      { intros ->. destruct S as (S1 & _ & S2). cbn in S1. apply (S2 d u (eq_sym S1)). now apply digit_digit. }
      split; [now constructor|]. destruct S as (-> & _).
      assert (W : w ++ ds ++ q = p ++ (l ++ c :: sg ++ ds) ++ q).
      { subst w. rewrite <- !app_assoc. cbn [app]. now rewrite <- !app_assoc. }
      assert (W' : slen w + slen ds = slen p + slen (l ++ c :: sg ++ ds)).
      { subst w. rewrite !slen_app, !slen_cons, !slen_app, slen_nil. lia. }
      rewrite W, W'. now rewrite (substr_mid p) by reflexivity.
    - right. split; [|reflexivity]. apply No. intros d' t Et. injection Et as <- _. intros Dd. apply digit_digit in Dd. congruence. }
  destruct (skip_one_spec (fun c => ceqb c "-") (p ++ l ++ [c]) r') as [(m & u & -> & M & ->)|(St & ->)]; cbn [bind].
  - apply ceqb_eq in M. subst m. specialize (Fin (lit "-") u (or_intror eq_refl) eq_refl ltac:(discriminate)).
    rewrite slen_app in Fin. exact Fin.
  - specialize (Fin [] r' (or_introl eq_refl) eq_refl). rewrite app_nil_r in Fin. apply Fin.
    intros _ d t ->. specialize (St d t eq_refl). now apply ceqb_neq.
Qed.
Lemma numeric_iff c : is_numeric c = true <-> digit c \/ c = "."%char.
Proof.
  rewrite <- digit_digit. unfold is_numeric, is_digit. now rewrite orb_true_iff, ceqb_eq.
Qed.
Definition rd_finish (s : str) (i k : Z) : res (bool * Z * str) :=
  let* a := advance_while is_digit s k in
  let* b := skip_one (fun c => ceqb c ".") s a in
  let* d := advance_while is_digit s b in rd_exp s i d.
Lemma rd_finish_spec p sg r c t : r = c :: t -> is_numeric c = true ->
  (exists l q, unsigned_number r l q
     /\ rd_finish (p ++ sg ++ r) (slen p) (slen (p ++ sg)) = Ok (true, slen p + slen (sg ++ l), sg ++ l))
  \/ ((forall l q, ~ unsigned_number r l q)
      /\ rd_finish (p ++ sg ++ r) (slen p) (slen (p ++ sg)) = Ok (false, slen p, [])).
Proof.
  intros Er Hc. apply numeric_iff in Hc. unfold rd_finish. rewrite app_assoc.
  destruct (advance_while_spec is_digit (p ++ sg) r) as (ds & q & -> & S). cbn [bind].
  apply (span_longest _ digit) in S; [|apply digit_digit].
  assert (Rest : forall f q', point q f q' -> (ds <> [] \/ f <> []) ->
    (exists l q, unsigned_number r l q /\ rd_exp ((p ++ sg) ++ r) (slen p) (slen (p ++ sg) + slen ds + slen f)
         = Ok (true, slen p + slen (sg ++ l), sg ++ l))
    \/ ((forall l q, ~ unsigned_number r l q)
        /\ rd_exp ((p ++ sg) ++ r) (slen p) (slen (p ++ sg) + slen ds + slen f) = Ok (false, slen p, []))).
  { intros f q' P N. pose proof S as (E & _).
    assert (Q : q = f ++ q') by (destruct P as [|ds1 u v (-> & _)]; reflexivity).
    pose proof (rd_exp_spec p (sg ++ ds ++ f) q') as X.
    replace (p ++ (sg ++ ds ++ f) ++ q') with ((p ++ sg) ++ r) in X by (rewrite E, Q; now rewrite <- !app_assoc).
    replace (slen (p ++ sg ++ ds ++ f)) with (slen (p ++ sg) + slen ds + slen f) in X by (rewrite !slen_app; lia).
    destruct X as [(e & q2 & X & ->)|(X & ->)].
    - left. exists (ds ++ f ++ e), q2. split; [econstructor; eassumption|]. now rewrite <- !app_assoc.
    - right. split; [|reflexivity]. intros l q2 U. destruct U as [u ds' q1 f' q2 e q3 L' P' _ X'].
      destruct (longest_unique _ _ _ _ _ _ S L') as (<- & <-). destruct (point_unique _ _ _ _ _ P P') as (<- & <-).
      now apply (X e q3). }
  pose proof S as (E & F & St).
  assert (Es : (p ++ sg) ++ r = ((p ++ sg) ++ ds) ++ q) by (rewrite E; apply app_assoc).
  rewrite <- (slen_app (p ++ sg) ds) in *. set (w := (p ++ sg) ++ ds) in *. set (s := (p ++ sg) ++ r) in *.
  pose proof (skip_one_spec (fun c => ceqb c ".") w q) as K. rewrite <- Es in K.
  destruct K as [(d & q' & Eq & D & ->)|(Sp & ->)]; cbn [bind].
  - apply ceqb_eq in D. subst d.
    assert (Ew : s = (w ++ lit ".") ++ q') by (rewrite Es, Eq; now rewrite <- app_assoc).
    assert (Lw : slen w + 1 = slen (w ++ lit ".")) by (rewrite (slen_app w); reflexivity).
    destruct (advance_while_spec is_digit (w ++ lit ".") q') as (fs & q2 & A & S2). rewrite <- Ew, <- Lw in A.
    rewrite A. cbn [bind]. apply (span_longest _ digit) in S2; [|apply digit_digit].
    specialize (Rest ("."%char :: fs) q2). rewrite Eq in Rest. specialize (Rest (point_some _ _ _ S2) ltac:(right; discriminate)).
    rewrite slen_cons in Rest. now rewrite Z.add_assoc in Rest.
  - assert (P : point q [] q).
    { constructor. intros x y -> ->. now specialize (Sp "."%char y eq_refl). }
    assert (Nd : ds <> []).
    { intros ->. cbn in E. subst q. rewrite Er in Sp, St. destruct Hc as [Hc|Hc].
      - now apply (St c t).
      - subst c. now specialize (Sp _ _ eq_refl). }
    destruct (advance_while_spec is_digit w q) as (fs & q2 & A & (E2 & F2 & _)). rewrite <- Es in A. rewrite A. cbn [bind].
    destruct fs as [|x fs].
    2:{ exfalso. inversion F2; subst. apply (St x (fs ++ q2) eq_refl). now apply digit_digit. }
    specialize (Rest [] q P (or_introl Nd)). rewrite slen_nil, !Z.add_0_r in *. exact Rest.
Qed.
Lemma read_double_eq s i : read_double s i =
  if i =? len s then Ok (false, i, [])
  else let* c := getZ s i in
    if ceqb c "-" then
      if i + 1 =? len s then Ok (false, i, [])
      else let* d := getZ s (i + 1) in
           if negb (is_numeric d) then Ok (false, i, []) else rd_finish s i (i + 1)
    else if negb (is_numeric c) then Ok (false, i, []) else rd_finish s i i.
Proof. reflexivity. Qed.
Lemma read_double_dec p r :
  (exists l q, number r l q /\ read_double (p ++ r) (slen p) = Ok (true, slen p + slen l, l))
  \/ ((forall l q, ~ number r l q) /\ read_double (p ++ r) (slen p) = Ok (false, slen p, [])).
Proof.
  rewrite read_double_eq. destruct r as [|c r].
  { right. split.
    - intros l q N. inversion N as [? ? ? U|]; subst. destruct (unsigned_head _ _ _ U) as (c & t & E & _). discriminate.
    - rewrite app_nil_r. change len with slen. now rewrite Z.eqb_refl. }
  change len with slen. rewrite slen_app, slen_cons. pose proof (slen_nonneg r).
  replace (slen p =? slen p + (1 + slen r)) with false by lia. rewrite getZ_mid by reflexivity. cbn [bind].
  destruct (ceqb c "-") eqn:C.
  - apply ceqb_eq in C. subst c.
    assert (NP : forall l q, ~ unsigned_number ("-"%char :: r) l q).
    { intros l q U. destruct (unsigned_head _ _ _ U) as (d & v & E & [D|D]); injection E as <- _; [now apply D|discriminate]. }
    destruct r as [|d r].
    + rewrite slen_nil. replace (slen p + 1 =? slen p + (1 + 0)) with true by lia. right. split; [|reflexivity].
      intros l q N. inversion N as [? ? ? U|? ? ? U]; subst; [now apply (NP l q)|].
      destruct (unsigned_head _ _ _ U) as (d & v & E & _). discriminate.
    + rewrite slen_cons. pose proof (slen_nonneg r).
      replace (slen p + 1 =? slen p + (1 + (1 + slen r))) with false by lia.
      replace (getZ (p ++ "-"%char :: d :: r) (slen p + 1)) with (Ok d).
      2:{ symmetry. change ("-"%char :: d :: r) with (["-"%char] ++ d :: r). rewrite app_assoc. apply getZ_mid.
          rewrite slen_app, slen_cons, slen_nil. lia. }
      cbn [bind]. destruct (is_numeric d) eqn:D; cbn [negb].
      * pose proof (rd_finish_spec p (lit "-") (d :: r) d r eq_refl D) as X.
        rewrite (slen_app p (lit "-")) in X. change (slen (lit "-")) with 1 in X.
        destruct X as [(l & q & U & X)|(U & X)].
        -- left. exists ("-"%char :: l), q. split; [now constructor|]. exact X.
        -- right. split; [|exact X]. intros l q N. inversion N as [? ? ? U'|? ? ? U']; subst; [now apply (NP l q)|].
           now apply (U _ _ U').
      * right. split; [|reflexivity].
        intros l q N. inversion N as [? ? ? U|? ? ? U]; subst; [now apply (NP l q)|].
        destruct (unsigned_head _ _ _ U) as (d' & v & E & X). injection E as <- _. apply numeric_iff in X. congruence.
  - apply ceqb_neq in C. destruct (is_numeric c) eqn:D; cbn [negb].
    + pose proof (rd_finish_spec p [] (c :: r) c r eq_refl D) as X. rewrite app_nil_r in X.
      destruct X as [(l & q & U & X)|(U & X)].
      * left. exists l, q. split; [now constructor|]. exact X.
      * right. split; [|exact X]. intros l q N. inversion N as [? ? ? U'|? ? ? U']; subst; [|congruence].
        now apply (U _ _ U').
    + right. split; [|reflexivity].
      intros l q N. inversion N as [? ? ? U|? ? ? U]; subst; [|congruence].
      destruct (unsigned_head _ _ _ U) as (d' & v & E & X). injection E as <- _. apply numeric_iff in X. congruence.
Qed.
Lemma read_double_spec p r :
  (forall l q, number r l q -> read_double (p ++ r) (slen p) = Ok (true, slen p + slen l, l))
  /\ ((forall l q, ~ number r l q) -> read_double (p ++ r) (slen p) = Ok (false, slen p, [])).
Proof.
  destruct (read_double_dec p r) as [(l & q & N & E)|(N & E)]; split.
  - intros l' q' N'. now destruct (number_unique _ _ _ _ _ N N') as (<- & <-).
  - intros X. destruct (X l q N).
  - intros l q X. destruct (N l q X).
  - auto.
Qed.

(** ** find_non_alpha *)
Lemma fna_fwd_spec : forall r p fuel, (length r < fuel)%nat ->
  (Forall letter r /\ fna_fwd fuel (p ++ r) (slen p) = Ok (-1))
  \/ (exists l c q, r = l ++ c :: q /\ Forall letter l /\ ~ letter c /\ fna_fwd fuel (p ++ r) (slen p) = Ok (slen p + slen l)).
Proof.
  induction r as [|c r IH]; intros p fuel H; (destruct fuel as [|fuel]; [lia|]); cbn [fna_fwd]; change len with slen.
  - left. rewrite app_nil_r. replace (slen p <? slen p) with false by lia. auto.
  - rewrite slen_app, slen_cons. pose proof (slen_nonneg r). replace (slen p <? slen p + (1 + slen r)) with true by lia.
    rewrite getZ_mid by reflexivity. cbn [bind]. destruct (is_alpha c) eqn:E; cbn [negb].
    + apply alpha_letter in E. simpl in H. specialize (IH (p ++ [c]) fuel ltac:(lia)).
      rewrite <- app_assoc, slen_app, slen_cons, slen_nil in IH. cbn [app] in IH. replace (slen p + (1 + 0)) with (slen p + 1) in IH by lia.
      destruct IH as [(F & ->)|(l & d & q & -> & F & N & ->)].
      * left. auto.
      * right. exists (c :: l), d, q. rewrite slen_cons. repeat split; auto. f_equal. lia.
    + right. exists [], c, r. rewrite slen_nil. repeat split; auto.
      * intros L. apply alpha_letter in L. congruence.
      * f_equal. lia.
Qed.
Lemma fna_bwd_spec q : forall p fuel, (length p < fuel)%nat ->
  (Forall letter p /\ fna_bwd fuel (p ++ q) (slen p) = Ok (-1))
  \/ (exists a c l, p = a ++ c :: l /\ Forall letter l /\ ~ letter c /\ fna_bwd fuel (p ++ q) (slen p) = Ok (slen a)).
Proof.
  intros p. revert q. induction p as [|c p IH] using rev_ind; intros q fuel H; (destruct fuel as [|fuel]; [lia|]); cbn [fna_bwd].
  - left. auto.
  - rewrite slen_app, slen_cons, slen_nil. pose proof (slen_nonneg p).
    replace (0 <? slen p + (1 + 0)) with true by lia. rewrite <- app_assoc. cbn [app].
    rewrite getZ_mid by lia. cbn [bind]. destruct (is_alpha c) eqn:E; cbn [negb].
    + apply alpha_letter in E. rewrite app_length in H. simpl in H.
      replace (slen p + (1 + 0) - 1) with (slen p) by lia.
      destruct (IH (c :: q) fuel ltac:(lia)) as [(F & ->)|(a & d & l & -> & F & N & ->)].
      * left. split; [|reflexivity]. apply Forall_app. auto.
      * right. exists a, d, (l ++ [c]). rewrite <- app_assoc. repeat split; auto. apply Forall_app. auto.
    + right. exists p, c, []. repeat split; auto.
      * intros L. apply alpha_letter in L. congruence.
      * f_equal. lia.
Qed.
Lemma find_non_alpha_spec p r :
  ((Forall letter r /\ find_non_alpha (p ++ r) (slen p) true = Ok (-1))
   \/ (exists l c q, r = l ++ c :: q /\ Forall letter l /\ ~ letter c
       /\ find_non_alpha (p ++ r) (slen p) true = Ok (slen p + slen l)))
  /\ ((Forall letter p /\ find_non_alpha (p ++ r) (slen p) false = Ok (-1))
   \/ (exists a c l, p = a ++ c :: l /\ Forall letter l /\ ~ letter c
       /\ find_non_alpha (p ++ r) (slen p) false = Ok (slen a))).
Proof.
  split.
  - apply fna_fwd_spec. change len with slen. rewrite slen_app. unfold slen. lia.
  - apply fna_bwd_spec. unfold slen. lia.
Qed.

Lemma read0_spec (s t : str) : exists b, read0 s t = Ok b /\ (b = true <-> exists q, s = t ++ q).
Proof.
  unfold read0. destruct (read_spec [] s t) as [(q & -> & E) | (N & E)]; cbn [app] in E; change (slen []) with 0 in E; rewrite E; cbn [bind fst].
  - exists true. split; [reflexivity|]. split; eauto.
  - exists false. split; [reflexivity|]. split; [discriminate|]. intros (q & D). now apply N in D.
Qed.
