(** Proofs about names of files on Windows. *)
From Coq Require Import Lia.
From Verif Require Import Base Model.Int Model.Chars Model.Str Model.Search Model.Url Model.UrlWin Spec.Url Spec.UrlAlt Spec.Search Spec.UrlText.
From Verif Require Import Proofs.StrProofs Proofs.SearchProofs Proofs.TextProofs Proofs.UrlProofs Proofs.UrlAltProofs Proofs.UrlTextProofs Proofs.UrlPrintProofs Spec.UrlWin.
Local Open Scope Z_scope.

(** ** Scanning *)
Definition is_sep (sep c : ascii) : Prop := c = sep \/ c = slash.
Lemma is_sep_b sep c : is_sep sep c -> ceqb c sep || ceqb c "/" = true.
Proof. intros [-> | ->]; [replace (ceqb sep sep) with true by (symmetry; now apply ceqb_true); reflexivity | apply Bool.orb_true_r]. Qed.
Definition seg (sep : ascii) (t : str) : Prop := t <> [] /\ Forall (fun c => c <> sep /\ c <> slash /\ c <> "["%char) t.
Definition seg_end (sep : ascii) (q : str) : Prop := match q with [] => True | c :: _ => is_sep sep c end.
Lemma to_sep_w_spec sep q : seg_end sep q -> forall t fuel p i, (length t < fuel)%nat -> i = len p -> Forall (fun c => c <> sep /\ c <> slash /\ c <> "["%char) t ->
  to_sep_w fuel sep (p ++ t ++ q) i = Ok (i + len t).
Proof.
  intros Q t. induction t as [| c t IH]; intros fuel p i L -> F; (destruct fuel as [| fuel]; [cbn in L; lia|]); cbn [to_sep_w app].
  - change (len (@nil ascii)) with 0. rewrite Z.add_0_r. destruct q as [| c q]; [rewrite app_nil_r, ltb_end by auto; reflexivity|].
    rewrite ltb_len, get_app by auto. cbn [bind]. rewrite is_sep_b by exact Q. reflexivity.
  - rewrite ltb_len, get_app by auto. cbn [bind]. inversion F as [| ? ? (H1 & H2 & H3) F']; subst.
    assert (E1 : ceqb c sep = false) by now apply ceqb_false. assert (E2 : ceqb c "/" = false) by now apply ceqb_false. assert (E3 : ceqb c "[" = false) by now apply ceqb_false.
    rewrite E1, E2, E3. cbn [orb]. replace (p ++ c :: t ++ q) with ((p ++ [c]) ++ t ++ q) by (rewrite <- app_assoc; reflexivity).
    rewrite IH; [f_equal; rewrite len_cons; lia | cbn in L; lia | rewrite len_app; reflexivity | auto].
Qed.
(** the empty name at the end *)
Notation trail := ending.
Lemma steps_end sep l e : Forall (fun p => is_sep sep (fst p) /\ seg sep (snd p)) l -> e = [] \/ (exists c, e = [c] /\ is_sep sep c) -> seg_end sep (steps l ++ e).
Proof. intros F E. destruct l as [| [c s] l]; [destruct E as [-> | (c & -> & H)]; [exact I | exact H]|]. apply Forall_inv in F. apply F. Qed.
Definition good (atom : str -> res url) (sep : ascii) (s : str) : Prop := seg sep s /\ atom s = Ok (Atom (drop_colon s)).
Definition gstep (atom : str -> res url) (sep : ascii) (p : ascii * str) : Prop := is_sep sep (fst p) /\ good atom sep (snd p).
Definition parts_of (l : list (ascii * str)) : list str := map (fun p => drop_colon (snd p)) l.
Definition tail_ok (sep : ascii) (e : str) : Prop := e = [] \/ (exists c, e = [c] /\ is_sep sep c).
Lemma gsteps_end atom sep l e : Forall (gstep atom sep) l -> tail_ok sep e -> seg_end sep (steps l ++ e).
Proof. intros F. apply steps_end. eapply Forall_impl; [|exact F]. intros [c s] [H1 [H2 _]]. auto. Qed.
Lemma loop_seg atom sep : forall p s q acc fuel, good atom sep s -> seg_end sep q ->
  name_loop_w (S fuel) atom sep (p ++ s ++ q) (len p) acc = name_loop_w fuel atom sep ((p ++ s) ++ q) (len (p ++ s)) (Atom (drop_colon s) :: acc).
Proof.
  intros p s q acc fuel [[Ns Fs] Ha] Q. cbn [name_loop_w].
  assert (L0 : 0 < len s) by (destruct s; [congruence|]; rewrite len_cons; assert (X := len_nonneg s); lia).
  assert (L1 : (len p <? len (p ++ s ++ q)) = true) by (rewrite !len_app; assert (Y := len_nonneg q); lia).
  rewrite L1. rewrite (to_sep_w_spec sep q) by (auto; rewrite !app_length; lia). cbn [bind].
  assert (L2 : (len p <? len p + len s) = true) by lia. rewrite L2. rewrite substr_seg by auto. rewrite Ha. cbn [bind]. rewrite <- app_assoc, len_app. reflexivity.
Qed.
Lemma loop_skip atom sep : forall p c q acc fuel, is_sep sep c -> q <> [] ->
  name_loop_w (S fuel) atom sep (p ++ c :: q) (len p) acc = name_loop_w fuel atom sep ((p ++ [c]) ++ q) (len (p ++ [c])) acc.
Proof.
  intros p c q acc fuel H N. cbn [name_loop_w]. rewrite ltb_len by auto. assert (T := to_sep_w_spec sep (c :: q) H [] (S (length (p ++ c :: q))) p (len p)). cbn [app] in T.
  rewrite T; [|cbn; lia | auto | constructor]. cbn [bind]. change (len (@nil ascii)) with 0. rewrite Z.add_0_r, Z.ltb_irrefl.
  assert (E : (len p + 1 =? len (p ++ c :: q)) = false) by (rewrite len_app, len_cons; destruct q; [congruence|]; rewrite len_cons; assert (X := len_nonneg q); lia).
  rewrite E, <- app_assoc, len_app. reflexivity.
Qed.
Lemma loop_steps atom sep e : tail_ok sep e -> forall l, Forall (gstep atom sep) l ->
  forall p acc fuel, (2 * length l + length e < fuel)%nat ->
  name_loop_w fuel atom sep (p ++ steps l ++ e) (len p) acc = Ok (trail e ++ rev (atoms (parts_of l)) ++ acc).
Proof.
  intros E l F. induction F as [| [c s] l [Hc Hs] F IH]; intros p acc fuel L.
  - cbn [steps flat_map app map parts_of atoms rev]. destruct fuel as [| fuel]; [cbn in L; lia |]. destruct E as [-> | (c & -> & H)].
    + rewrite app_nil_r. cbn [name_loop_w]. rewrite ltb_end by auto. reflexivity.
    + cbn [name_loop_w]. rewrite ltb_len by auto. assert (T := to_sep_w_spec sep [c] H [] (S (length (p ++ [c]))) p (len p)). cbn [app] in T. rewrite T; [|cbn; lia | auto | constructor].
      cbn [bind]. change (len (@nil ascii)) with 0. rewrite Z.add_0_r, Z.ltb_irrefl. rewrite len_app. change (len [c]) with 1. rewrite Z.eqb_refl.
      destruct fuel as [| fuel]; [cbn in L; lia|]. cbn [name_loop_w]. rewrite len_app. change (len [c]) with 1. rewrite Z.ltb_irrefl. reflexivity.
  - cbn [fst snd] in *. destruct fuel as [| [| fuel]]; [cbn in L; lia | cbn in L; lia |].
    change (steps ((c, s) :: l) ++ e) with ((c :: s ++ steps l) ++ e). cbn [app]. rewrite <- app_assoc.
    rewrite loop_skip; [|auto|destruct Hs as [[Ns _] _]; destruct s; [congruence | discriminate]].
    rewrite loop_seg; [|auto | now apply (gsteps_end atom)].
    rewrite IH by (cbn in L; lia). cbn [parts_of map atoms rev snd]. rewrite <- !app_assoc. reflexivity.
Qed.
Lemma steps_length l : Forall (fun p => snd p <> []) l -> (2 * length l <= length (steps l))%nat.
Proof.
  intros F. induction F as [| [c s] l N F IH]; [cbn; lia|]. change (steps ((c, s) :: l)) with ((c :: s) ++ steps l). rewrite app_length. cbn [length snd] in *. destruct s; [congruence|]. cbn [length]. lia.
Qed.
Lemma gsteps_length atom sep l : Forall (gstep atom sep) l -> (2 * length l <= length (steps l))%nat.
Proof. intros F. apply steps_length. eapply Forall_impl; [|exact F]. intros [c s] [_ [[N _] _]]. exact N. Qed.
(** Building the url *)
Lemma named_flags s : named s -> is_here (Atom s) || is_empty (Atom s) = false /\ ueqb (Atom s) url_parent = false.
Proof.
  intros (N1 & N2 & N3). split; [|apply ueqb_neq; unfold url_parent; congruence]. apply comp_not_here. left. exists s. auto.
Qed.
Lemma build_path f : forall l r u, r <> [] -> Forall named l -> u = path r -> build_loop_w f (rev (atoms l)) u = Ok (path (atoms l ++ r)).
Proof.
  induction l as [| s l IH] using rev_ind; intros r u N F ->; [reflexivity|]. apply Forall_app in F. destruct F as [F Fs]. apply Forall_inv in Fs.
  unfold atoms in *. rewrite map_app, rev_app_distr. cbn [map rev app build_loop_w]. destruct (named_flags s Fs) as [-> _]. cbn [is_atomic].
  rewrite <- (path_cons (Atom s) r N). rewrite (IH (Atom s :: r)); auto; [|congruence]. rewrite <- app_assoc. reflexivity.
Qed.
Lemma build_spec_w f l e : l <> [] -> Forall named l ->
  match trail e ++ rev (atoms l) with [] => Ok (Atom []) | ret :: l' => build_loop_w f l' ret end = Ok (path (atoms l ++ trail e)).
Proof.
  intros N F. destruct e as [| c e]; cbn [ending app].
  - destruct (@exists_last _ l N) as (l' & s & ->). apply Forall_app in F. destruct F as [F _]. unfold atoms. rewrite map_app, rev_app_distr. cbn [map rev app].
    rewrite app_nil_r. apply (build_path f l' [Atom s]); auto. congruence.
  - apply (build_path f l [Atom []]); auto. congruence.
Qed.
Section Names.
Context (f : nat) (atom : str -> res url) (t : type) (l : list (ascii * str)) (e : str).
Hypothesis (E : tail_ok (concater t) e) (F : Forall (gstep atom (concater t)) l) (G : Forall named (parts_of l)).
Lemma gn_steps : l <> [] -> get_name_w f atom (steps l ++ e) t = Ok (path (atoms (parts_of l) ++ trail e)).
Proof.
  intros N. unfold get_name_w. assert (H := loop_steps atom (concater t) e E l F [] [] (S (length (steps l ++ e)))). cbn [app] in H. change (len (@nil ascii)) with 0 in H.
  rewrite H by (rewrite app_length; assert (X := gsteps_length _ _ _ F); lia). cbn [bind]. rewrite app_nil_r. apply build_spec_w; auto. destruct l; [congruence | discriminate].
Qed.
Lemma gn_skip c : l <> [] -> is_sep (concater t) c -> get_name_w f atom (c :: steps l ++ e) t = Ok (path (atoms (parts_of l) ++ trail e)).
Proof.
  intros N S. unfold get_name_w. assert (K := loop_skip atom (concater t) [] c (steps l ++ e) [] (length (c :: steps l ++ e)) S). cbn [app] in K. change (len (@nil ascii)) with 0 in K.
  rewrite K by (destruct l as [| [? ?] ?]; [congruence | discriminate]). assert (H := loop_steps atom (concater t) e E l F [c] [] (length (c :: steps l ++ e))). cbn [app] in H.
  rewrite H by (cbn [length]; rewrite app_length; assert (X := gsteps_length _ _ _ F); lia). cbn [bind]. rewrite app_nil_r. apply build_spec_w; auto. destruct l; [congruence | discriminate].
Qed.
Lemma gn_head h : good atom (concater t) h -> named (drop_colon h) -> get_name_w f atom (h ++ steps l ++ e) t = Ok (path (atoms (drop_colon h :: parts_of l) ++ trail e)).
Proof.
  intros S N. unfold get_name_w. assert (K := loop_seg atom (concater t) [] h (steps l ++ e) [] (length (h ++ steps l ++ e)) S (gsteps_end _ _ _ _ F E)). cbn [app] in K. change (len (@nil ascii)) with 0 in K.
  rewrite K. assert (H := loop_steps atom (concater t) e E l F h [Atom (drop_colon h)] (length (h ++ steps l ++ e))).
  rewrite H by (rewrite !app_length; assert (X := gsteps_length _ _ _ F); destruct S as [[Nh _] _]; destruct h; [congruence|]; cbn [length]; lia). cbn [bind].
  assert (B := build_spec_w f (drop_colon h :: parts_of l) e). unfold atoms in *. cbn [map rev] in B. rewrite B; [reflexivity | discriminate | constructor; auto].
Qed.
End Names.
(** ** url_general in parts *)
Definition atom_w (mingw : bool) (env : str -> str) (t : type) (f : nat) (s : str) : res url :=
  if type_lt_standard t && seqb s (lit "~") then general_w mingw f env (env (lit "HOME")) SYSTEM
  else
    let* d := starts s (lit "$") in
    if type_lt_standard t && d then
      let val := env (substr s 1 (len s)) in
      if seqb val [] then Ok url_none
      else let* u := general_w mingw f env val SYSTEM in unblank_w f u
    else if contains_char s "*" then Ok (Wild (Some s))
    else Ok (Atom (drop_colon s)).
Definition name_w (mingw : bool) (env : str -> str) (t : type) (s : str) (f : nat) : res url := get_name_w f (atom_w mingw env t f) s t.
Definition root_w (mingw : bool) (env : str -> str) (p : str) (t : type) (s : str) (f : nat) : res url := let* u := name_w mingw env t s f in mul_w f (url_root p) u.
Definition path_w (mingw : bool) (f : nat) (env : str -> str) (name : str) (t : type) : nat -> Z -> res url := fix go (k : nat) (i : Z) : res url :=
  match k with
  | O => Fuel
  | S k' =>
    if i =? len name then Ok url_none
    else
      let* j := to_sep (S (length name)) (separator t) name i in
      let* u := general_w mingw f env (substr name i j) t in
      if j =? len name then Ok u
      else if i =? j then go k' (j + 1)
      else let* r := go k' (j + 1) in Ok (uor u r)
  end.
Definition rest_w (mingw : bool) (env : str -> str) (name : str) (t : type) (f : nat) : res url :=
  let* l := starts name (lit "local:") in
  if l then root_w mingw env (lit "file") SYSTEM (substr name 6 (len name)) f
  else
    let* b := starts name (lit "//") in
    if b then root_w mingw env (lit "blank") STANDARD (substr name 2 (len name)) f
    else
      let* p := heuristic_is_path_w name t in
      if p then path_w mingw f env name t (S (length name)) 0
      else
        let* d := heuristic_is_default_w name in
        if d then
          let* u := name_w mingw env t name f in
          mul_w f (url_root (lit "default")) (match u with Concat a (Atom []) => a | _ => u end)
        else
          let* m := heuristic_is_mingw_default name t in
          if mingw && m then root_w mingw env (lit "default") t (substr name 0 2 ++ lit ":" ++ substr name 2 (len name)) f
          else
            let* w := starts name (lit "www.") in
            let* g := starts name (lit "ftp.") in
            if negb (clean t) && w then root_w mingw env (lit "http") STANDARD name f
            else if negb (clean t) && g then root_w mingw env (lit "ftp") STANDARD name f
            else name_w mingw env t name f.
Lemma general_w_eq mingw f env name t : general_w mingw (S f) env name t =
  let* c := contains name (lit "://") in
  if c then
    let* tokens := tokenize name (lit "://") in
    match tokens with
    | proto :: path :: more =>
      if match more with [] => true | _ => false end && is_alphanum_s proto && (2 <=? len proto) then root_w mingw env proto (read_as proto t) path f
      else rest_w mingw env name t f
    | _ => UB
    end
  else rest_w mingw env name t f.
Proof.
  transitivity (let* c := contains name (lit "://") in
  if c then
    let* tokens := tokenize name (lit "://") in
    match tokens with
    | proto :: path :: more =>
      if match more with [] => true | _ => false end && is_alphanum_s proto && (2 <=? len proto) then
          if seqb proto (lit "file") then root_w mingw env proto SYSTEM path f
          else if seqb proto (lit "http") then root_w mingw env proto STANDARD path f
          else if seqb proto (lit "https") then root_w mingw env proto STANDARD path f
          else if seqb proto (lit "ftp") then root_w mingw env proto STANDARD path f
          else root_w mingw env proto t path f
      else rest_w mingw env name t f
    | _ => UB
    end
  else rest_w mingw env name t f); [reflexivity|].
  destruct (contains name (lit "://")) as [[] | | |]; cbn [bind]; auto. destruct (tokenize name (lit "://")) as [[| proto [| path more]] | | |]; cbn [bind]; auto.
  unfold read_as. destruct (seqb proto (lit "file")), (seqb proto (lit "http")), (seqb proto (lit "https")), (seqb proto (lit "ftp")); reflexivity.
Qed.
Lemma protocol_w mingw f env p q t : protocol_name p -> (forall i, ~ occurs_at (lit "://") q i) -> general_w mingw (S f) env (p ++ lit "://" ++ q) t = root_w mingw env p (read_as p t) q f.
Proof.
  intros P Q. rewrite general_w_eq. destruct (occurs_spec (lit "://") (p ++ lit "://" ++ q)) as (b & _ & -> & H). cbn [bind].
  assert (B : b = true) by (apply H; exists (slen p), p, q; auto). rewrite B. clear b B H.
  assert (C : cut (lit "://") (p ++ lit "://" ++ q) [p; q]).
  { apply cut_at; [|now apply cut_last]. intros i L O. apply occurs_char in O. destruct O as (a & b & E & Li). assert (I := app_split_in _ _ _ _ _ E).
    assert (H : In ":"%char p) by (apply I; unfold slen in *; lia). destruct (alnum_not ":" p P H) as [X _]. now apply X. }
  assert (T : tokenize (p ++ lit "://" ++ q) (lit "://") = Ok [p; q]) by (unfold tokenize, tokenize_fuel; apply (tokenize_cut (lit "://") ltac:(discriminate) _ _ C _ _ O []); auto; lia).
  rewrite T. cbn [bind]. destruct (protocol_alnum p P) as [-> ->]. reflexivity.
Qed.
Lemma other_w mingw f env name t : (forall p q, name = p ++ lit "://" ++ q -> ~ protocol_name p) -> general_w mingw (S f) env name t = rest_w mingw env name t f.
Proof.
  intros N. rewrite general_w_eq. destruct (occurs_spec (lit "://") name) as (b & _ & -> & H). cbn [bind]. destruct b; [|reflexivity].
  destruct (tokenize_spec name (lit "://")) as (ts & -> & C); [discriminate|]. cbn [bind]. inversion C as [x O E | x s ts' O C' E]; subst.
  - exfalso. destruct H as [H _]. destruct (H eq_refl) as (i & Oi). now apply (O i).
  - inversion C' as [y O' E' | y s' ts'' O' C'' E']; subst; [|inversion C''; reflexivity].
    destruct (is_alphanum_s x) eqn:A; [|reflexivity]. destruct (2 <=? len x) eqn:L; [|reflexivity]. exfalso. apply (N x s eq_refl). now apply alnum_protocol.
Qed.
(** ** The tests *)
Lemma path_loop_no sep : forall r p fuel i, (length r < fuel)%nat -> i = len p -> ~ In sep r -> ~ In "["%char r -> path_loop_w fuel sep (p ++ r) i = Ok false.
Proof.
  induction r as [| c r IH]; intros p fuel i L -> N B; (destruct fuel as [| fuel]; [cbn in L; lia|]); cbn [path_loop_w].
  - rewrite app_nil_r, ltb_end by auto. reflexivity.
  - rewrite ltb_len, get_app by auto. cbn [bind]. assert (E1 : ceqb c "[" = false) by (apply ceqb_false; intros ->; apply B; now left). assert (E2 : ceqb c sep = false) by (apply ceqb_false; intros ->; apply N; now left).
    rewrite E1, E2. replace (p ++ c :: r) with ((p ++ [c]) ++ r) by (rewrite <- app_assoc; reflexivity). apply IH; [cbn in L; lia | rewrite len_app; reflexivity | |]; intros H; [apply N | apply B]; now right.
Qed.
Lemma not_path name t : ~ In (separator t) name -> ~ In "["%char name -> heuristic_is_path_w name t = Ok false.
Proof. intros N B. apply (path_loop_no (separator t) name [] _ 0); auto. Qed.
Lemma path_loop_yes sep : sep <> "["%char -> forall r p q fuel i, (length r < fuel)%nat -> i = len p -> ~ In "["%char r -> path_loop_w fuel sep (p ++ r ++ sep :: q) i = Ok true.
Proof.
  intros S. induction r as [| c r IH]; intros p q fuel i L -> B; (destruct fuel as [| fuel]; [cbn in L; lia|]); cbn [path_loop_w app].
  - rewrite ltb_len, get_app by auto. cbn [bind]. assert (E1 : ceqb sep "[" = false) by now apply ceqb_false. assert (E2 : ceqb sep sep = true) by now apply ceqb_true. now rewrite E1, E2.
  - rewrite ltb_len, get_app by auto. cbn [bind]. assert (E1 : ceqb c "[" = false) by (apply ceqb_false; intros ->; apply B; now left). rewrite E1. destruct (ceqb c sep); [reflexivity|].
    replace (p ++ c :: r ++ sep :: q) with ((p ++ [c]) ++ r ++ sep :: q) by (rewrite <- app_assoc; reflexivity). apply IH; [cbn in L; lia | rewrite len_app; reflexivity |]. intros H. apply B. now right.
Qed.
(** plain names *)
Lemma plain_in s c : plain s -> In c s -> ~ In c [slash; bslash; ":"; ";"; "*"; "["]%char.
Proof. intros (_ & _ & _ & _ & _ & F) H. rewrite Forall_forall in F. now apply F. Qed.
Lemma plain_not s c : plain s -> In c [slash; bslash; ":"; ";"; "*"; "["]%char -> ~ In c s.
Proof. intros P H I. exact (plain_in s c P I H). Qed.
Lemma drop_plain s : plain s -> drop_colon s = s.
Proof.
  intros P. unfold drop_colon. destruct (len s =? 2) eqn:L; [|reflexivity]. destruct s as [| a [| b [| c s]]]; try discriminate; cbn [andb].
  - destruct (ends [a; b] (lit ":")) eqn:E; [|reflexivity]. exfalso. apply (plain_not [a; b] ":"); [auto | cbn; tauto |]. unfold ends in E. change (str_eq [b] (lit ":") = true) in E. apply str_eq_spec in E. injection E as ->. right. now left.
  - exfalso. rewrite !len_cons in L. assert (X := len_nonneg s). lia.
Qed.
Lemma concater_cases t : concater t = bslash \/ concater t = slash.
Proof. destruct t; auto. Qed.
Lemma plain_seg t s : plain s -> seg (concater t) s.
Proof.
  intros P. split; [apply P|]. apply Forall_forall. intros c H. assert (N := plain_in s c P H). cbn in N.
  split; [intros ->; destruct (concater_cases t) as [E | E]; rewrite E in N; tauto|]. split; intros ->; tauto.
Qed.
Lemma letter_colon_seg t c : letter c -> seg (concater t) [c; ":"%char].
Proof.
  intros L. split; [congruence|]. assert (c <> bslash /\ c <> slash /\ c <> "["%char) by (repeat split; intros ->; unfold letter in L; cbn in L; lia).
  constructor; [|constructor; [|constructor]]; destruct (concater_cases t) as [-> | ->]; repeat split; try tauto; discriminate.
Qed.
Lemma starts_hd s a : hd slash s <> a -> a <> slash -> starts s [a] = Ok false.
Proof. intros N S. apply starts_false. intros (r & ->). now apply N. Qed.
Lemma no_star s : ~ In "*"%char s -> contains_char s "*" = false.
Proof.
  intros N. unfold contains_char. destruct (existsb _ s) eqn:E; [|reflexivity]. exfalso. apply existsb_exists in E. destruct E as (x & I & H). apply ceqb_true in H. subst. auto.
Qed.
Lemma atom_plain mingw env t f s : plain s -> atom_w mingw env t f s = Ok (Atom (drop_colon s)).
Proof.
  intros P. unfold atom_w. assert (T : seqb s (lit "~") = false) by (apply seqb_neq; apply P). rewrite T, Bool.andb_false_r.
  change (lit "$") with ["$"%char]. rewrite starts_hd by (try apply P; discriminate). cbn [bind]. rewrite Bool.andb_false_r.
  rewrite no_star; [reflexivity|]. apply plain_not; [auto | cbn; tauto].
Qed.
Lemma atom_letter mingw env t f c : letter c -> atom_w mingw env t f [c; ":"%char] = Ok (Atom (drop_colon [c; ":"%char])).
Proof.
  intros L. unfold atom_w. assert (T : seqb [c; ":"%char] (lit "~") = false) by (apply seqb_neq; discriminate). rewrite T, Bool.andb_false_r.
  change (lit "$") with ["$"%char]. rewrite starts_hd; [|cbn; intros ->; unfold letter in L; cbn in L; lia | discriminate]. cbn [bind]. rewrite Bool.andb_false_r.
  rewrite no_star; [reflexivity|]. intros [-> | [H | []]]; [unfold letter in L; cbn in L; lia | discriminate].
Qed.
Lemma drop_letter c : drop_colon [c; ":"%char] = [c].
Proof. destruct c as [[] [] [] [] [] [] [] []]; reflexivity. Qed.
Lemma letter_named c : letter c -> named [c].
Proof. intros L. repeat split; try discriminate; intros E; injection E as ->; unfold letter in L; cbn in L; lia. Qed.
Lemma plain_named s : plain s -> named s.
Proof. intros P. repeat split; apply P. Qed.
Lemma good_plain mingw env t f s : plain s -> good (atom_w mingw env t f) (concater t) s.
Proof. intros P. split; [now apply plain_seg | now apply atom_plain]. Qed.
Lemma good_letter mingw env t f c : letter c -> good (atom_w mingw env t f) (concater t) [c; ":"%char].
Proof. intros L. split; [now apply letter_colon_seg | now apply atom_letter]. Qed.
Definition sep_step (t : type) (p : ascii * str) : Prop := is_sep (concater t) (fst p) /\ plain (snd p).
Lemma gsteps_plain mingw env t f l : Forall (sep_step t) l -> Forall (gstep (atom_w mingw env t f) (concater t)) l.
Proof. intros F. eapply Forall_impl; [|exact F]. intros [c s] [H1 H2]. split; [auto | now apply good_plain]. Qed.
Lemma parts_plain t l : Forall (sep_step t) l -> parts_of l = map snd l.
Proof. intros F. apply map_ext_in. intros [c s] I. rewrite Forall_forall in F. apply drop_plain. apply (F _ I). Qed.
Lemma parts_named t l : Forall (sep_step t) l -> Forall named (parts_of l).
Proof.
  intros F. rewrite (parts_plain t) by auto. apply Forall_map. eapply Forall_impl; [|exact F]. intros [c s] [_ H]. now apply plain_named.
Qed.
Lemma step_sep p : step p -> sep_step SYSTEM p.
Proof. intros [[H | H] P]; (split; [|exact P]); [now right | now left]. Qed.
Lemma closing_tail e : closing e -> tail_ok bslash e.
Proof. intros [-> | [-> | ->]]; [now left | right; exists slash; split; [auto | now right] | right; exists bslash; split; [auto | now left]]. Qed.
(** ** Products *)
Lemma ev_mul_w u1 u2 r : eventually (fun f => mul_step_w (mul_w f) u1 u2) r -> eventually (fun f => mul_w f u1 u2) r.
Proof. intros H. apply ev_S. exact H. Qed.
Lemma named_prop s : named s -> proper (Atom s).
Proof. intros (N1 & N2 & N3). split; [left; exists s; auto | intros E; injection E as ->; apply N3; reflexivity]. Qed.
Lemma atoms_proper l : Forall named l -> Forall proper (atoms l).
Proof. intros F. apply Forall_map. eapply Forall_impl; [|exact F]. exact named_prop. Qed.
Lemma trail_piece e : Forall piece (trail e).
Proof. destruct e; [constructor|]. constructor; [now right | constructor]. Qed.
Definition yields_w (u1 u2 : url) (r : res url) : Prop := eventually (fun f => mul_w f u1 u2) r.
Lemma mulw_comp c b : component c -> Forall piece b -> yields_w c (path b) (Ok (path (enter c b))).
Proof.
  intros C F. apply ev_mul_w. exists O. intros f _. unfold mul_step_w. rewrite path_not_rooted by auto.
  rewrite comp_not_here by auto. rewrite path_here by auto. destruct b as [| x b]; [reflexivity|].
  rewrite comp_not_none, path_none, comp_not_root, comp_pseudo by auto. rewrite !Bool.andb_false_r. cbn [andb].
  assert (SR : is_semi_root_w c = false) by (destruct C as [(s & -> & _) | (s & ->)]; reflexivity). rewrite SR, !Bool.andb_false_r.
  assert (L : match c with Concat a b0 => let* r := mul_w f b0 (path (x :: b)) in mul_w f a r | _ => Ok (Concat c (path (x :: b))) end = Ok (Concat c (path (x :: b)))).
  { destruct C as [(s & -> & _) | (s & ->)]; reflexivity. }
  rewrite L. inversion F as [| ? ? Cx Fb]; subst. rewrite <- is_up_parent. cbn [enter]. destruct b as [| y b].
  - cbn [path]. rewrite ueqb_comp_parent. destruct (is_up x && negb (is_up c)); [reflexivity|].
    apply piece_not_concat in Cx. destruct x; try discriminate; reflexivity.
  - rewrite path_cons by congruence. cbn [ueqb url_parent andb]. rewrite ueqb_comp_parent, !Bool.andb_false_r.
    destruct (is_up x && negb (is_up c)); reflexivity.
Qed.
Lemma mulw_path a : forall b, Forall component a -> Forall piece b -> b <> [] \/ settled a ->
  yields_w (path a) (path b) (Ok (path (UrlProofs.join a b))).
Proof.
  induction a as [| c a IH]; intros b Fa Fb H.
  - apply ev_mul_w. exists O. intros f _. unfold mul_step_w. cbn [path UrlProofs.join fold_right]. rewrite path_not_rooted by auto. reflexivity.
  - inversion Fa as [| ? ? C Fa']; subst. destruct a as [| d a].
    + now apply mulw_comp.
    + destruct b as [| x b].
      * destruct H as [H|H]; [congruence|]. rewrite UrlProofs.join_nil by auto. apply ev_mul_w. exists O. intros f _.
        unfold mul_step_w. rewrite path_cons by congruence. reflexivity.
      * assert (Q : yields_w (path (d :: a)) (path (x :: b)) (Ok (path (UrlProofs.join (d :: a) (x :: b))))) by (apply IH; auto; left; congruence).
        assert (Q2 : yields_w c (path (UrlProofs.join (d :: a) (x :: b))) (Ok (path (enter c (UrlProofs.join (d :: a) (x :: b)))))) by (apply mulw_comp; [auto | apply comp_join; auto using UrlProofs.comps_pieces]).
        apply ev_mul_w. rewrite (path_cons c (d :: a)) by congruence.
        assert (G : eventually (fun f => let* r := mul_w f (path (d :: a)) (path (x :: b)) in mul_w f c r) (Ok (path (UrlProofs.join (c :: d :: a) (x :: b))))).
        { eapply ev_bind; [exact Q | exact Q2]. }
        eapply ev_ext; [|exact G]. intros f. unfold mul_step_w. rewrite path_not_rooted by auto. cbn [is_here is_empty is_atom orb].
        rewrite path_here by auto. cbn [is_none]. rewrite path_none by auto. cbn [is_root is_pseudo_atomic is_atomic is_wildcard1 orb andb].
        assert (SR : is_semi_root_w (Concat c (path (d :: a))) = false).
        { cbn. destruct C as [(s & -> & _) | (s & ->)]; reflexivity. }
        rewrite SR, !Bool.andb_false_r. destruct (path (x :: b)); rewrite ?Bool.andb_false_r; reflexivity.
Qed.
Lemma step_path_w rec u1 x b : Forall piece (x :: b) -> is_here u1 || is_empty u1 = false -> is_none u1 = false ->
  mul_step_w rec u1 (path (x :: b)) =
  let again := match b with [] => Ok u1 | _ => rec u1 (path b) end in
  if is_up x && is_root u1 then again
  else if is_up x && (is_pseudo_atomic u1 && negb (is_parent u1)) then Ok (path b)
  else if is_up x && is_semi_root_w u1 then again
  else match u1 with
       | Concat a c => let* r := rec c (path (x :: b)) in rec a r
       | _ => Ok (Concat u1 (path (x :: b)))
       end.
Proof.
  intros F H N. unfold mul_step_w. rewrite path_not_rooted by auto. rewrite H, path_here by auto. rewrite N, path_none by auto.
  inversion F as [| ? ? Px Fb]; subst. destruct b as [| y b].
  - cbn [path]. rewrite ueqb_comp_parent. apply piece_not_concat in Px. destruct (is_up x); cbn [andb].
    + destruct (is_root u1), (is_pseudo_atomic u1 && negb (is_parent u1)), (is_semi_root_w u1); try reflexivity.
      destruct x; try discriminate; reflexivity.
    + destruct x; try discriminate; reflexivity.
  - rewrite path_cons by congruence. cbn [ueqb url_parent andb]. rewrite ueqb_comp_parent.
    destruct (is_up x), (is_root u1), (is_pseudo_atomic u1 && negb (is_parent u1)), (is_semi_root_w u1); reflexivity.
Qed.
Lemma mulw_root p c b : Forall piece b -> yields_w (Root p c) (path b) (Ok (rooted (Root p c) (no_ups b))).
Proof.
  induction b as [| x b IH]; intros F; apply ev_mul_w.
  - exists O. reflexivity.
  - inversion F as [| ? ? Px Fb]; subst. cbn [no_ups]. destruct (is_up x) eqn:E.
    + eapply ev_ext; [intros f; symmetry; apply step_path_w; auto|]. cbn zeta. rewrite E. cbn [andb is_root]. destruct b; [apply ev_const | now apply IH].
    + exists O. intros f _. rewrite step_path_w by auto. rewrite E. reflexivity.
Qed.
Lemma mulw_long p c a b : Forall proper a -> (2 <= length a)%nat -> Forall piece b ->
  yields_w (rooted (Root p c) a) (path b) (Ok (rooted (Root p c) (no_ups (walk a b)))).
Proof.
  intros Pa L Fb. assert (Fa := UrlProofs.proper_comp a Pa). rewrite <- join_walk by now apply proper_settled. destruct a as [| x [| y a]]; [cbn in L; lia | cbn in L; lia |]. destruct b as [| z b].
  - rewrite UrlProofs.join_nil by now apply proper_settled. rewrite proper_no_ups by auto. apply ev_mul_w. exists O. reflexivity.
  - apply ev_mul_w. eapply ev_ext; [intros f; symmetry; apply step_path_w; auto|]. cbn zeta.
    rewrite rooted_cons. rewrite (path_cons x (y :: a)) by congruence. cbn [is_root is_pseudo_atomic is_atomic is_wildcard1 orb andb is_semi_root_w is_special_root_w]. rewrite !Bool.andb_false_r.
    rewrite <- (path_cons x (y :: a)) by congruence. eapply ev_bind; [apply mulw_path; auto; left; congruence|]. apply mulw_root. apply comp_join; auto using UrlProofs.comps_pieces.
Qed.
Lemma mulw_short p c h b : proper (Atom h) -> Forall piece b ->
  yields_w (rooted (Root p c) [Atom h]) (path b) (Ok (rooted (Root p c) (Atom h :: no_ups b))).
Proof.
  intros H F. induction b as [| x b IH]; apply ev_mul_w.
  - exists O. reflexivity.
  - inversion F as [| ? ? Px Fb]; subst. eapply ev_ext; [intros f; symmetry; apply step_path_w; auto|]. cbn zeta.
    cbn [rooted path is_root is_pseudo_atomic is_atomic is_wildcard1 orb andb is_semi_root_w is_special_root_w]. rewrite !Bool.andb_false_r, Bool.andb_true_r. cbn [no_ups].
    destruct (is_up x) eqn:E.
    + destruct b; [apply ev_const | now apply IH].
    + eapply ev_bind; [apply (mulw_comp (Atom h) (x :: b)); [apply H | auto]|]. cbn [enter]. rewrite E. cbn [andb].
      assert (Q := mulw_root p c (Atom h :: x :: b)). cbn [no_ups] in Q. rewrite (UrlProofs.proper_up _ H) in Q. apply Q. constructor; auto. left. apply H.
Qed.
Lemma mulw_default l e : l <> [] -> Forall named l -> yields_w (url_root (lit "default")) (path (atoms l ++ trail e)) (Ok (rooted default (atoms l ++ trail e))).
Proof.
  intros N F. assert (Q := mulw_root (lit "default") None (atoms l ++ trail e)). destruct l as [| h l]; [congruence|]. inversion F; subst. assert (P := atoms_proper (h :: l) F).
  assert (E : no_ups (atoms (h :: l) ++ trail e) = atoms (h :: l) ++ trail e) by (cbn [atoms map app no_ups]; assert (U := UrlProofs.proper_up (Atom h) (named_prop h ltac:(assumption))); rewrite U; reflexivity).
  rewrite E in Q. apply Q. apply Forall_app. split; [|apply trail_piece]. apply UrlProofs.comps_pieces. now apply UrlProofs.proper_comp.
Qed.
Lemma mulw_file l e : l <> [] -> Forall named l -> yields_w (url_root (lit "file")) (path (atoms l ++ trail e)) (Ok (rooted file (atoms l ++ trail e))).
Proof.
  intros N F. assert (Q := mulw_root (lit "file") None (atoms l ++ trail e)). destruct l as [| h l]; [congruence|]. inversion F; subst. assert (P := atoms_proper (h :: l) F).
  assert (E : no_ups (atoms (h :: l) ++ trail e) = atoms (h :: l) ++ trail e) by (cbn [atoms map app no_ups]; assert (U := UrlProofs.proper_up (Atom h) (named_prop h ltac:(assumption))); rewrite U; reflexivity).
  rewrite E in Q. apply Q. apply Forall_app. split; [|apply trail_piece]. apply UrlProofs.comps_pieces. now apply UrlProofs.proper_comp.
Qed.
(** ** Reading *)
Lemma ev_read mingw env ty s g r : (forall f, general_w mingw (S f) env s ty = g f) -> eventually g r -> eventually (fun f => general_w mingw f env s ty) r.
Proof. intros E H. apply ev_S. eapply ev_ext; [|exact H]. intros f. symmetry. apply E. Qed.
Lemma steps_in c l : In c (steps l) -> exists p, In p l /\ (c = fst p \/ In c (snd p)).
Proof.
  unfold steps. intros H. apply in_flat_map in H. destruct H as (p & I & [H | H]); exists p; auto.
Qed.
Lemma steps_free c l : Forall step l -> In c [":"; ";"; "*"; "["]%char -> ~ In c (steps l).
Proof.
  intros F H I. apply steps_in in I. destruct I as (p & I & J). rewrite Forall_forall in F. destruct (F p I) as [S P]. destruct J as [J | J].
  - subst c. destruct S as [S | S]; rewrite S in H; cbn in H; intuition discriminate.
  - apply (plain_in _ _ P J). cbn in *. tauto.
Qed.
Lemma closing_free c e : closing e -> In c [":"; ";"; "*"; "["]%char -> ~ In c e.
Proof. intros [-> | [-> | ->]] H I; cbn in *; intuition (subst; discriminate). Qed.
Lemma letter_free x c : letter x -> In c [slash; bslash; ":"; ";"; "*"; "["; "$"; "~"]%char -> x <> c.
Proof. intros L I ->. unfold letter in L. cbn [In] in I. repeat (destruct I as [<- | I]; [cbn in L; lia|]). destruct I. Qed.
Lemma letter_alpha c : letter c -> is_alpha c = true /\ -1 <= schar c.
Proof.
  intros L. assert (S := byte_sweep (fun c => implb ((65 <=? code c) && (code c <=? 90) || (97 <=? code c) && (code c <=? 122)) (is_alpha c && (-1 <=? schar c))) eq_refl c). cbn beta in S.
  replace ((65 <=? code c) && (code c <=? 90) || (97 <=? code c) && (code c <=? 122)) with true in S by (symmetry; unfold letter in L; destruct L as [L | L]; [apply Bool.orb_true_iff; left | apply Bool.orb_true_iff; right]; apply Bool.andb_true_iff; split; apply Z.leb_le; lia).
  cbn [implb] in S. apply Bool.andb_true_iff in S. destruct S. split; [auto | lia].
Qed.
Definition strip (u : url) : url := match u with Concat a (Atom []) => a | _ => u end.
(** url_default removes the empty name after a drive or a server only *)
Notation trail_after := ending_after.
Lemma strip_spec h l e : Forall named (map snd l) -> strip (path (atoms (h :: map snd l) ++ trail e)) = path (atoms (h :: map snd l) ++ trail_after l e).
Proof.
  intros F. destruct l as [| [c s] [| q l]]; cbn [map atoms app ending_after snd].
  - destruct e; reflexivity.
  - destruct e; cbn [ending app path strip]; [|reflexivity]. apply Forall_inv in F. destruct F as [N _]. cbn [snd] in N. destruct s; [congruence | reflexivity].
  - reflexivity.
Qed.
Lemma mulw_trail h l e : Forall named (h :: map snd l) -> yields_w (url_root (lit "default")) (path (atoms (h :: map snd l) ++ trail_after l e)) (Ok (rooted default (atoms (h :: map snd l) ++ trail_after l e))).
Proof. intros F. destruct l; [apply (mulw_default [h] []); auto; discriminate | apply mulw_default; [discriminate | auto]]. Qed.
Lemma system_steps l : Forall step l -> Forall (sep_step SYSTEM) l.
Proof. apply Forall_impl. exact step_sep. Qed.
Lemma plain_steps l : Forall step l -> Forall named (map snd l).
Proof. intros F. apply Forall_map. eapply Forall_impl; [|exact F]. intros p [_ P]. now apply plain_named. Qed.
Lemma read_drive mingw env c l e : letter c -> Forall step l -> closing e ->
  reads mingw env SYSTEM (drive_text c l ++ e) (rooted default (atoms ([c] :: map snd l) ++ trail_after l e)).
Proof.
  intros L F E. unfold reads. assert (NF : ~ In ";"%char (drive_text c l ++ e) /\ ~ In "["%char (drive_text c l ++ e)).
  { unfold drive_text. cbn [app]. split; (intros [H | [H | H]]; [revert H; apply (letter_free c _ L); cbn; tauto | discriminate |]); apply in_app_iff in H; (destruct H as [H | H]; [revert H; apply (steps_free _ _ F); cbn; tauto | revert H; apply (closing_free _ _ E); cbn; tauto]). }
  eapply ev_read; [intros f; apply other_w|].
  { unfold drive_text. intros p q H [N A]. destruct p as [| x [| y p]]; [cbn in N; lia | cbn in N; lia|]. injection H as <- <- _. apply Forall_inv_tail in A. apply Forall_inv in A. change (code ":") with 58 in A. lia. }
  unfold rest_w. rewrite !starts_false by (unfold drive_text; intros (r & H); cbn in H; try discriminate H; injection H as H _; revert H; apply (letter_free c _ L); cbn; tauto).
  cbn [bind]. rewrite not_path by tauto. cbn [bind].
  assert (D : heuristic_is_default_w (drive_text c l ++ e) = Ok true).
  { unfold heuristic_is_default_w, drive_text. cbn [app]. assert (L2 : (len (c :: ":"%char :: steps l ++ e) <? 2) = false) by (rewrite !len_cons; assert (X := len_nonneg (steps l ++ e)); lia). rewrite L2.
    change (getZ (c :: ":"%char :: steps l ++ e) 0) with (Ok c). change (getZ (c :: ":"%char :: steps l ++ e) 1) with (Ok ":"%char). cbn [bind].
    assert (B : ceqb c backslash = false) by (apply ceqb_false; apply (letter_free c bslash L); cbn; tauto). rewrite B. cbn [andb]. destruct (letter_alpha c L) as [A S]. assert (S' : (schar c <? -1) = false) by lia. rewrite S', A. cbn [andb ceqb].
    change (ceqb ":" ":") with true. cbn iota. assert (T : steps l ++ e = [] \/ exists x r, steps l ++ e = x :: r /\ (x = slash \/ x = bslash)).
    { destruct F as [| [x s] l [Sx _] F]; [destruct E as [-> | [-> | ->]]; [now left | right; exists slash, []; auto | right; exists bslash, []; auto]|]. right. exists x, ((s ++ steps l) ++ e). auto. }
    destruct T as [-> | (x & r & -> & T)]; [reflexivity|]. assert (L3 : (len (c :: ":"%char :: x :: r) =? 2) = false) by (rewrite !len_cons; assert (X := len_nonneg r); lia). rewrite L3.
    change (getZ (c :: ":"%char :: x :: r) 2) with (Ok x). cbn [bind]. destruct T as [-> | ->]; reflexivity. }
  rewrite D. cbn [bind]. assert (G : forall f, name_w mingw env SYSTEM (drive_text c l ++ e) f = Ok (path (atoms ([c] :: map snd l) ++ trail e))).
  { intros f. unfold name_w. assert (H := gn_head f (atom_w mingw env SYSTEM f) SYSTEM l e). rewrite (parts_plain SYSTEM) in H by now apply system_steps. specialize (H (closing_tail e E) (gsteps_plain mingw env SYSTEM f l (system_steps l F)) (plain_steps l F) [c; ":"%char]).
    rewrite drop_letter in H. apply H; [now apply good_letter | now apply letter_named]. }
  eapply ev_bind; [exists O; intros f _; apply G|].
  fold (strip (path (atoms ([c] :: map snd l) ++ trail e))). rewrite strip_spec by now apply plain_steps. apply mulw_trail. constructor; [now apply letter_named | now apply plain_steps].
Qed.
Lemma read_server mingw env h l e : plain h -> Forall step l -> closing e ->
  reads mingw env SYSTEM (server_text h l ++ e) (rooted default (atoms (h :: map snd l) ++ trail_after l e)).
Proof.
  intros P F E. unfold reads.
  assert (F' : Forall step ((bslash, h) :: l)) by (constructor; [split; [now right | auto] | auto]).
  assert (EQ : server_text h l ++ e = bslash :: steps ((bslash, h) :: l) ++ e) by reflexivity. rewrite EQ. clear EQ.
  assert (NF : ~ In ";"%char (bslash :: steps ((bslash, h) :: l) ++ e) /\ ~ In "["%char (bslash :: steps ((bslash, h) :: l) ++ e)).
  { split; (intros [H | H]; [discriminate|]); apply in_app_iff in H; (destruct H as [H | H]; [revert H; apply (steps_free _ _ F'); cbn; tauto | revert H; apply (closing_free _ _ E); cbn; tauto]). }
  eapply ev_read; [intros f; apply other_w|].
  { intros p q H [N A]. destruct p as [| x p]; [cbn in N; lia|]. injection H as <- _. apply Forall_inv in A. change (code bslash) with 92 in A. lia. }
  unfold rest_w. rewrite !starts_false by (intros (r & H); discriminate H).
  cbn [bind]. rewrite not_path by tauto. cbn [bind].
  assert (D : heuristic_is_default_w (bslash :: steps ((bslash, h) :: l) ++ e) = Ok true).
  { unfold heuristic_is_default_w. change (steps ((bslash, h) :: l) ++ e) with (bslash :: (h ++ steps l) ++ e). assert (L2 : (len (bslash :: bslash :: (h ++ steps l) ++ e) <? 2) = false) by (rewrite !len_cons; assert (X := len_nonneg ((h ++ steps l) ++ e)); lia). rewrite L2.
    reflexivity. }
  rewrite D. cbn [bind]. assert (G : forall f, name_w mingw env SYSTEM (bslash :: steps ((bslash, h) :: l) ++ e) f = Ok (path (atoms (h :: map snd l) ++ trail e))).
  { intros f. unfold name_w. assert (H := gn_skip f (atom_w mingw env SYSTEM f) SYSTEM ((bslash, h) :: l) e). rewrite (parts_plain SYSTEM) in H by now apply system_steps. apply H; [now apply closing_tail | now apply gsteps_plain, system_steps | now apply plain_steps | discriminate | now left]. }
  eapply ev_bind; [exists O; intros f _; apply G|].
  fold (strip (path (atoms (h :: map snd l) ++ trail e))). rewrite strip_spec by now apply plain_steps. apply mulw_trail. constructor; [now apply plain_named | now apply plain_steps].
Qed.
Lemma prefix_firstn (p s : str) n : length p = n -> has_prefix p s -> firstn n s = p.
Proof. intros <- (r & ->). rewrite firstn_app, Nat.sub_diag, firstn_all. cbn. apply app_nil_r. Qed.
Lemma dotted_prefix h l e p : Forall step l -> closing e -> length p = 3%nat -> Forall (fun c => c <> slash /\ c <> bslash) p ->
  has_prefix (p ++ ["."%char]) (h ++ steps l ++ e) -> has_prefix (p ++ ["."%char]) h.
Proof.
  intros F E Lp Np (r & H). assert (S : forall x q, steps l ++ e = x :: q -> x = slash \/ x = bslash).
  { intros x q Q. destruct F as [| [y s] l [Sx _] F]; [destruct E as [-> | [-> | ->]]; cbn in Q; [discriminate | injection Q as <- <-; auto | injection Q as <- <-; auto]|]. injection Q as <- _. auto. }
  destruct p as [| a [| b [| c [|]]]]; try discriminate. inversion Np as [| ? ? [A1 A2] Np2]; subst. inversion Np2 as [| ? ? [B1 B2] Np3]; subst. inversion Np3 as [| ? ? [C1 C2] _]; subst.
  cbn [app] in H. destruct h as [| x1 [| x2 [| x3 [| x4 h]]]]; cbn [app] in H.
  - destruct (S _ _ H); congruence.
  - injection H as -> H. destruct (S _ _ H); congruence.
  - injection H as -> -> H. destruct (S _ _ H); congruence.
  - injection H as -> -> -> H. destruct (S _ _ H); discriminate.
  - injection H as -> -> -> -> H. exists h. reflexivity.
Qed.
Lemma read_relative mingw env h l e : relative h -> Forall step l -> closing e ->
  reads mingw env SYSTEM (h ++ steps l ++ e) (path (atoms (h :: map snd l) ++ trail e)).
Proof.
  intros (P & SC & W & T) F E. unfold reads. assert (NF : forall c, In c [":"; ";"; "["]%char -> ~ In c (h ++ steps l ++ e)).
  { intros c H I. apply in_app_iff in I. destruct I as [I | I]; [revert I; apply plain_not; [auto | cbn in *; tauto]|]. apply in_app_iff in I. destruct I as [I | I]; revert I; [apply steps_free | apply closing_free]; auto; cbn in *; tauto. }
  assert (NH : h <> []) by apply P. assert (HH : forall c, In c [slash; bslash] -> hd slash h <> c).
  { intros c Hc Hh. destruct h as [| x h]; [congruence|]. cbn in Hh. subst x. apply (plain_in (c :: h) c P); [now left | cbn in *; tauto]. }
  eapply ev_read; [intros f; apply other_w|].
  { apply no_colon_other. apply NF. cbn. tauto. }
  unfold rest_w. rewrite (starts_false _ (lit "local:")) by (intros (r & H); apply (NF ":"%char); [cbn; tauto | rewrite H; cbn; tauto]).
  rewrite (starts_false _ (lit "//")) by (intros (r & H); destruct h as [| x h]; [congruence|]; injection H as -> _; apply (HH slash); [cbn; tauto | reflexivity]).
  cbn [bind]. rewrite not_path by (apply NF; cbn; tauto). cbn [bind].
  assert (D : heuristic_is_default_w (h ++ steps l ++ e) = Ok false).
  { unfold heuristic_is_default_w. destruct h as [| x h]; [congruence|]. cbn [app]. destruct (len (x :: h ++ steps l ++ e) <? 2) eqn:L2; [reflexivity|].
    change (getZ (x :: h ++ steps l ++ e) 0) with (Ok x). destruct (h ++ steps l ++ e) as [| y r] eqn:R; [discriminate|]. change (getZ (x :: y :: r) 1) with (Ok y). cbn [bind].
    assert (B : ceqb x backslash = false) by (apply ceqb_false; apply (HH bslash); cbn; tauto). rewrite B. cbn [andb]. cbn [hd] in SC. assert (S' : (schar x <? -1) = false) by lia. rewrite S'.
    assert (C : ceqb y ":" = false) by (apply ceqb_false; intros ->; apply (NF ":"%char); [cbn; tauto | cbn [app]; rewrite R; cbn; tauto]). rewrite C, Bool.andb_false_r. reflexivity. }
  rewrite D. cbn [bind heuristic_is_mingw_default]. rewrite Bool.andb_false_r.
  rewrite (starts_false _ (lit "www.")).
  2: { intros H. apply W. apply prefix_firstn; [reflexivity|]. apply (dotted_prefix h l e (lit "www")); auto. repeat (constructor; [split; discriminate|]). constructor. }
  rewrite (starts_false _ (lit "ftp.")).
  2: { intros H. apply T. apply prefix_firstn; [reflexivity|]. apply (dotted_prefix h l e (lit "ftp")); auto. repeat (constructor; [split; discriminate|]). constructor. }
  cbn [bind]. rewrite !Bool.andb_false_r. exists O. intros f _. unfold name_w.
  assert (H := gn_head f (atom_w mingw env SYSTEM f) SYSTEM l e). rewrite (parts_plain SYSTEM) in H by now apply system_steps. rewrite <- (drop_plain h P) at 2.
  apply H; [now apply closing_tail | now apply gsteps_plain, system_steps | now apply plain_steps | now apply good_plain | rewrite drop_plain by auto; now apply plain_named].
Qed.
Lemma denotes_reads mingw env s u : denotes s u -> reads mingw env SYSTEM s u.
Proof. intros [c l e L F E | h l e P N F E | h l e R F E]; [now apply read_drive | now apply read_server | now apply read_relative]. Qed.
(** ** Printing *)
Lemma trail_app l e : atoms l ++ trail e = atoms (l ++ match e with [] => [] | _ => [[]] end).
Proof. unfold atoms. rewrite map_app. destruct e; reflexivity. Qed.
Lemma print_path_w mingw t h l : as_string_w mingw (path (atoms (h :: l))) t = h ++ steps (with_sep (concater t) l).
Proof.
  revert h. induction l as [| s l IH]; intros h; [symmetry; apply app_nil_r|]. change (atoms (h :: s :: l)) with (Atom h :: atoms (s :: l)). rewrite path_cons by discriminate.
  cbn [as_string_w is_root is_root_of is_name negb andb orb]. rewrite IH.
  assert (E : negb (is_concat (path (atoms (s :: l)))) && negb (is_atomic (path (atoms (s :: l)))) = false) by (destruct l; reflexivity). rewrite E. cbn [andb].
  rewrite Bool.andb_false_r. reflexivity.
Qed.
Lemma print_default h l : as_string_w false (rooted default (atoms (h :: l))) SYSTEM =
  if len h =? 1 then h ++ lit ":" ++ [bslash] ++ match l with [] => [] | s :: l' => s ++ steps (with_sep bslash l') end
  else [bslash; bslash] ++ h ++ [bslash] ++ match l with [] => [] | s :: l' => s ++ steps (with_sep bslash l') end.
Proof.
  destruct l as [| s l]; [reflexivity|]. change (rooted default (atoms (h :: s :: l))) with (Concat default (Concat (Atom h) (path (atoms (s :: l))))).
  cbn [as_string_w]. rewrite print_path_w. reflexivity.
Qed.
Lemma back_plain s : plain s -> backslashes s = s.
Proof.
  intros P. unfold backslashes. rewrite <- (map_id s) at 2. apply map_ext_in. intros c H. assert (E : ceqb c slash = false) by (apply ceqb_false; intros ->; apply (plain_in s slash P H); cbn; tauto). now rewrite E.
Qed.
Lemma back_app a b : backslashes (a ++ b) = backslashes a ++ backslashes b.
Proof. apply map_app. Qed.
Lemma back_steps l : Forall step l -> backslashes (steps l) = steps (with_sep bslash (map snd l)).
Proof.
  intros F. induction F as [| [c s] l [S P] F IH]; [reflexivity|]. change (steps ((c, s) :: l)) with ((c :: s) ++ steps l). rewrite back_app, IH. cbn [map with_sep snd] in *.
  change (steps ((bslash, s) :: map (fun s0 : str => (bslash, s0)) (map snd l))) with ((bslash :: s) ++ steps (with_sep bslash (map snd l))). f_equal. change (backslashes (c :: s)) with ((if ceqb c slash then bslash else c) :: backslashes s). rewrite back_plain by auto.
  cbn [fst] in S. destruct S as [-> | ->]; reflexivity.
Qed.
Lemma back_closing e : closing e -> backslashes e = match e with [] => [] | _ => [bslash] end.
Proof. intros [-> | [-> | ->]]; reflexivity. Qed.
Lemma with_app c a b : with_sep c (a ++ b) = with_sep c a ++ with_sep c b.
Proof. apply map_app. Qed.
Lemma steps_app a b : steps (a ++ b) = steps a ++ steps b.
Proof. apply flat_map_app. Qed.
Lemma steps_empty (e : str) : steps (with_sep bslash match e with [] => [] | _ :: _ => [[]] end) = match e with [] => [] | _ => [bslash] end.
Proof. destruct e; reflexivity. Qed.
Lemma back_letter c : letter c -> backslashes [c; ":"%char] = [c; ":"%char].
Proof. intros L. cbn. assert (E : ceqb c slash = false) by (apply ceqb_false; apply (letter_free c slash L); cbn; tauto). now rewrite E. Qed.
Lemma long_server h l e : plain h -> (2 <= length h)%nat -> Forall step l -> closing e ->
  as_string_w false (rooted default (atoms (h :: map snd l) ++ trail_after l e)) SYSTEM = backslashes (server_text h l ++ e) ++ match l, e with [], [] => [bslash] | _, _ => [] end.
Proof.
  intros P N F E. assert (L : (len h =? 1) = false) by (unfold len; lia).
  assert (S : backslashes (server_text h l ++ e) = [bslash; bslash] ++ h ++ steps (with_sep bslash (map snd l)) ++ match e with [] => [] | _ => [bslash] end).
  { unfold server_text. change (bslash :: bslash :: h ++ steps l) with ([bslash; bslash] ++ h ++ steps l). rewrite !back_app, (back_plain h), (back_steps l), (back_closing e) by auto. rewrite <- !app_assoc. reflexivity. }
  rewrite S. destruct l as [| [c s] l].
  - cbn [trail_after map]. rewrite app_nil_r, print_default, L. destruct e; cbn [map with_sep steps flat_map app]; rewrite ?app_nil_r; reflexivity.
  - cbn [trail_after]. rewrite trail_app. cbn [map app snd]. rewrite print_default, L. rewrite with_app, steps_app, steps_empty.
    change (steps (with_sep bslash (s :: map snd l))) with ((bslash :: s) ++ steps (with_sep bslash (map snd l))). destruct e; cbn [app]; rewrite <- ?app_assoc, ?app_nil_r; cbn [app]; rewrite ?app_nil_r, <- ?app_assoc; reflexivity.
Qed.
Lemma drive_print c l e : letter c -> Forall step l -> closing e ->
  as_string_w false (rooted default (atoms ([c] :: map snd l) ++ trail_after l e)) SYSTEM = backslashes (drive_text c l ++ e) ++ match l, e with [], [] => [bslash] | _, _ => [] end.
Proof.
  intros L F E.
  assert (S : backslashes (drive_text c l ++ e) = [c; ":"%char] ++ steps (with_sep bslash (map snd l)) ++ match e with [] => [] | _ => [bslash] end).
  { unfold drive_text. change (c :: ":"%char :: steps l) with ([c; ":"%char] ++ steps l). rewrite !back_app, back_letter, (back_steps l), (back_closing e) by auto. rewrite <- !app_assoc. reflexivity. }
  rewrite S. destruct l as [| [x s] l].
  - cbn [trail_after map]. rewrite app_nil_r, print_default. destruct e; reflexivity.
  - cbn [trail_after]. rewrite trail_app. cbn [map app snd]. rewrite print_default. change (len [c] =? 1) with true. cbn iota. rewrite with_app, steps_app, steps_empty.
    change (steps (with_sep bslash (s :: map snd l))) with ((bslash :: s) ++ steps (with_sep bslash (map snd l))). destruct e; cbn [app lit]; rewrite <- ?app_assoc, ?app_nil_r; reflexivity.
Qed.
Lemma relative_print mingw h l e : relative h -> Forall step l -> closing e ->
  as_string_w mingw (path (atoms (h :: map snd l) ++ trail e)) SYSTEM = backslashes (h ++ steps l ++ e).
Proof.
  intros (P & _) F E. rewrite trail_app. cbn [app]. rewrite print_path_w. change (concater SYSTEM) with bslash. rewrite with_app, steps_app, steps_empty, !back_app, (back_plain h), (back_steps l), (back_closing e) by auto. reflexivity.
Qed.
Lemma denotes_prints s u : denotes s u -> as_string_w false u SYSTEM = backslashes s \/ ((exists h, u = at_ h []) /\ as_string_w false u SYSTEM = backslashes s ++ [bslash]).
Proof.
  intros [c l e L F E | h l e P N F E | h l e R F E].
  - rewrite drive_print by auto. destruct l; [destruct e|]; rewrite ?app_nil_r; auto. right. split; [exists [c]; reflexivity | reflexivity].
  - rewrite long_server by auto. destruct l; [destruct e|]; rewrite ?app_nil_r; auto. right. split; [exists h; reflexivity | reflexivity].
  - left. now apply relative_print.
Qed.
Lemma back_step_list l : Forall step l -> Forall step (with_sep bslash (map snd l)).
Proof. intros F. apply Forall_map, Forall_map. eapply Forall_impl; [|exact F]. intros p [_ P]. split; [now right | exact P]. Qed.
Lemma map_snd_with c l : map snd (with_sep c l) = l.
Proof. unfold with_sep. rewrite map_map. apply map_id. Qed.
(** the printed text denotes the same *)
Lemma denotes_again s u : denotes s u -> denotes (as_string_w false u SYSTEM) u.
Proof.
  intros D. assert (D0 := D). destruct D as [c l e L F E | h l e P N F E | h l e R F E].
  - rewrite drive_print by auto.
    assert (S : backslashes (drive_text c l ++ e) ++ match l, e with [], [] => [bslash] | _, _ => [] end = drive_text c (with_sep bslash (map snd l)) ++ match l, e with [], [] => [bslash] | _, [] => [] | _, _ => [bslash] end).
    { unfold drive_text. change (c :: ":"%char :: steps l) with ([c; ":"%char] ++ steps l). rewrite !back_app, back_letter, (back_steps l), (back_closing e) by auto. destruct l, e; cbn [app]; rewrite ?app_nil_r; reflexivity. }
    rewrite S. assert (D := denotes_drive c (with_sep bslash (map snd l)) match l, e with [], [] => [bslash] | _, [] => [] | _, _ => [bslash] end L (back_step_list l F)). rewrite map_snd_with in D.
    assert (C : closing match l, e with [], [] => [bslash] | _, [] => [] | _, _ => [bslash] end) by (unfold closing; destruct l, e; auto). specialize (D C). destruct l as [| q l]; [exact D|]. destruct e; exact D.
  - rewrite long_server by auto.
    assert (S : backslashes (server_text h l ++ e) ++ match l, e with [], [] => [bslash] | _, _ => [] end = server_text h (with_sep bslash (map snd l)) ++ match l, e with [], [] => [bslash] | _, [] => [] | _, _ => [bslash] end).
    { unfold server_text. change (bslash :: bslash :: h ++ steps l) with ([bslash; bslash] ++ h ++ steps l). rewrite !back_app, (back_plain h), (back_steps l), (back_closing e) by auto. destruct l, e; cbn [app]; rewrite ?app_nil_r; try reflexivity; cbn; rewrite ?app_nil_r; reflexivity. }
    rewrite S. assert (D := denotes_server h (with_sep bslash (map snd l)) match l, e with [], [] => [bslash] | _, [] => [] | _, _ => [bslash] end P N (back_step_list l F)). rewrite map_snd_with in D.
    assert (C : closing match l, e with [], [] => [bslash] | _, [] => [] | _, _ => [bslash] end) by (unfold closing; destruct l, e; auto). specialize (D C). destruct l as [| q l]; [exact D|]. destruct e; exact D.
  - rewrite relative_print by auto. assert (P := R). destruct P as (P & _). rewrite !back_app, (back_plain h), (back_steps l), (back_closing e) by auto.
    assert (D := denotes_relative h (with_sep bslash (map snd l)) match e with [] => [] | _ => [bslash] end R (back_step_list l F)). rewrite map_snd_with in D.
    assert (C : closing match e with [] => [] | _ => [bslash] end) by (unfold closing; destruct e; auto). specialize (D C). destruct e; exact D.
Qed.
Lemma round_trip mingw env s u : denotes s u -> reads mingw env SYSTEM (as_string_w false u SYSTEM) u.
Proof. intros D. apply denotes_reads. now apply (denotes_again s). Qed.
(** ** One separator at the beginning *)
Lemma steps_sep_first t l e : Forall (sep_step t) l -> l <> [] -> exists c s r, steps l ++ e = c :: s ++ r /\ is_sep (concater t) c /\ plain s /\ l = (c, s) :: tl l /\ r = steps (tl l) ++ e.
Proof. intros F N. destruct F as [| [c s] l [S P] F]; [congruence|]. exists c, s, (steps l ++ e). change (steps ((c, s) :: l)) with ((c :: s) ++ steps l). split; [cbn [app]; now rewrite <- app_assoc|]. auto. Qed.
Lemma sep_steps_free t c l : Forall (sep_step t) l -> In c [":"; ";"; "*"; "["]%char -> ~ In c (steps l).
Proof.
  intros F. apply steps_free. eapply Forall_impl; [|exact F]. intros [x s] [[H | H] P]; (split; [|exact P]); cbn [fst] in *; subst; [destruct (concater_cases t) as [-> | ->]; auto | now left].
Qed.
Lemma sep_tail_free t c e : tail_ok (concater t) e -> In c [":"; ";"; "*"; "["]%char -> ~ In c e.
Proof.
  intros [-> | (x & -> & H)] I; [auto|]. intros [J | []]. subst x. destruct H as [-> | ->]; [destruct (concater_cases t) as [E | E]; rewrite E in I|]; cbn in I; intuition discriminate.
Qed.
Lemma separator_in t : In (separator t) [":"; ";"; "*"; "["]%char.
Proof. destruct t; cbn; tauto. Qed.
Lemma one_default_no x s r : is_sep slash x \/ x = bslash -> plain s -> heuristic_is_default_w (x :: s ++ r) = Ok false.
Proof.
  intros X P. unfold heuristic_is_default_w. destruct (len (x :: s ++ r) <? 2); [reflexivity|]. change (getZ (x :: s ++ r) 0) with (Ok x).
  destruct s as [| y s]; [destruct P; congruence|]. change (getZ (x :: (y :: s) ++ r) 1) with (Ok y). cbn [bind].
  assert (B : ceqb y backslash = false) by (apply ceqb_false; intros ->; apply (plain_in (backslash :: s) backslash P); [now left | cbn; tauto]).
  rewrite B, Bool.andb_false_r. assert (H : (schar x <? -1) = false /\ is_alpha x = false) by (destruct X as [[-> | ->] | ->]; split; reflexivity). destruct H as [-> ->]. reflexivity.
Qed.
Lemma rest_one mingw env t l e : Forall (sep_step t) l -> l <> [] -> tail_ok (concater t) e ->
  (mingw = false \/ t = SYSTEM \/ forall c, letter c -> snd (hd (slash, []) l) <> [c]) ->
  forall f, general_w mingw (S f) env (steps l ++ e) t = Ok (path (atoms (map snd l) ++ trail e)).
Proof.
  intros F N E M f. destruct (steps_sep_first t l e F N) as (c & s & r & Q & Sc & P & Hl & Hr).
  assert (NF : forall x, In x [":"; ";"; "*"; "["]%char -> ~ In x (steps l ++ e)).
  { intros x H I. apply in_app_iff in I. destruct I as [I | I]; revert I; [now apply (sep_steps_free t) | now apply (sep_tail_free t)]. }
  assert (C : c = bslash \/ c = slash) by (destruct Sc as [-> | ->]; [apply concater_cases | now right]).
  rewrite other_w by (apply no_colon_other; apply NF; cbn; tauto). unfold rest_w.
  rewrite (starts_false _ (lit "local:")) by (rewrite Q; intros (z & H); injection H as H _; destruct C as [-> | ->]; discriminate). cbn [bind].
  rewrite (starts_false _ (lit "//")) by (rewrite Q; intros (z & H); injection H as _ H; destruct s as [| y s]; [destruct P; congruence|]; injection H as -> _; apply (plain_in ("/"%char :: s) "/"%char P); [now left | cbn; tauto]). cbn [bind].
  rewrite not_path by (apply NF; first [apply separator_in | cbn; tauto]). cbn [bind]. rewrite Q at 1. rewrite (one_default_no c s r); [| destruct C as [-> | ->]; [now right | left; now left] | exact P]. cbn [bind].
  assert (G : forall f, name_w mingw env t (steps l ++ e) f = Ok (path (atoms (map snd l) ++ trail e))).
  { intros f0. unfold name_w. assert (H := gn_steps f0 (atom_w mingw env t f0) t l e E (gsteps_plain mingw env t f0 l F) (parts_named t l F) N). rewrite (parts_plain t) in H by auto. exact H. }
  assert (HM : exists b, heuristic_is_mingw_default (steps l ++ e) t = Ok b /\ mingw && b = false).
  { unfold heuristic_is_mingw_default. destruct t; [exists false; rewrite Bool.andb_false_r; auto | | |].
    all: destruct mingw; [|cbn [andb]; destruct (2 <=? len (steps l ++ e)) eqn:L2; [|eauto]; rewrite Q; destruct s as [| y s]; [destruct P; congruence|];
      change (getZ (c :: (y :: s) ++ r) 0) with (Ok c); change (getZ (c :: (y :: s) ++ r) 1) with (Ok y); cbn [bind]; destruct (ceqb c "/" && is_alpha y); [|eauto];
      destruct (len (c :: (y :: s) ++ r) =? 2) eqn:L3; [eauto|]; destruct (s ++ r) as [| z q] eqn:Z; [exfalso; cbn [app] in L3; rewrite Z in L3; discriminate|]; cbn [app]; rewrite Z; change (getZ (c :: y :: z :: q) 2) with (Ok z); cbn [bind]; eauto].
    all: destruct M as [M | [M | M]]; try discriminate; rewrite Hl in M; cbn [hd snd] in M; cbn [andb]; exists false; split; [|reflexivity].
    all: destruct (2 <=? len (steps l ++ e)) eqn:L2; [|reflexivity]; rewrite Q; destruct s as [| y s]; [destruct P; congruence|];
      change (getZ (c :: (y :: s) ++ r) 0) with (Ok c); change (getZ (c :: (y :: s) ++ r) 1) with (Ok y); cbn [bind]; destruct (ceqb c "/" && is_alpha y) eqn:A; [|reflexivity].
    all: apply Bool.andb_true_iff in A; destruct A as [_ A]; assert (LY : letter y) by (assert (SW := byte_sweep (fun c => implb (is_alpha c) ((65 <=? code c) && (code c <=? 90) || (97 <=? code c) && (code c <=? 122))) eq_refl y); cbn beta in SW; rewrite A in SW; cbn [implb] in SW; unfold letter; lia).
    all: destruct s as [| z s]; [exfalso; now apply (M y LY)|]; cbn [app]; assert (L3 : (len (c :: y :: z :: s ++ r) =? 2) = false) by (rewrite !len_cons; assert (X := len_nonneg (s ++ r)); lia); rewrite L3; change (getZ (c :: y :: z :: s ++ r) 2) with (Ok z); cbn [bind].
    all: f_equal; apply ceqb_false; intros ->; apply (plain_in (y :: "/"%char :: s) "/"%char P); [right; now left | cbn; tauto]. }
  destruct HM as (b & HM1 & HM2). rewrite HM1. cbn [bind]. rewrite HM2. rewrite !starts_false by (rewrite Q; intros (z & H); injection H as H _; destruct C as [-> | ->]; discriminate). cbn [bind]. rewrite !Bool.andb_false_r. apply G.
Qed.
Lemma read_one mingw env l e : Forall step l -> l <> [] -> closing e -> reads mingw env SYSTEM (steps l ++ e) (path (atoms (map snd l) ++ trail e)).
Proof. intros F N E. apply ev_S. exists O. intros f _. apply rest_one; auto; [now apply system_steps | now apply closing_tail]. Qed.
(** Names with slashes, not of the operating system *)
Lemma slash_steps t l : Forall plain l -> Forall (sep_step t) (with_sep slash l).
Proof. intros F. apply Forall_map. eapply Forall_impl; [|exact F]. intros s P. split; [now right | exact P]. Qed.
Lemma slash_tail t e : e = [] \/ e = [slash] -> tail_ok (concater t) e.
Proof. intros [-> | ->]; [now left | right; exists slash; split; [auto | now right]]. Qed.
Lemma read_standard mingw env t l e : t <> SYSTEM -> Forall plain l -> l <> [] -> e = [] \/ e = [slash] -> (mingw = false \/ forall c, letter c -> hd [] l <> [c]) ->
  reads mingw env t (steps (with_sep slash l) ++ e) (path (atoms l ++ trail e)).
Proof.
  intros T F N E M. apply ev_S. exists O. intros f _. rewrite <- (map_snd_with slash l) at 2. apply rest_one; [now apply slash_steps | destruct l; [congruence | discriminate] | now apply slash_tail|].
  destruct M as [M | M]; [now left|]. right. right. intros c L. destruct l; [congruence|]. now apply M.
Qed.
Lemma read_mingw env t c l e : t <> SYSTEM -> letter c -> Forall plain l -> e = [] \/ e = [slash] ->
  reads true env t (steps (with_sep slash ([c] :: l)) ++ e) (rooted default (atoms ([c] :: l) ++ trail e)).
Proof.
  intros T L F E. assert (Q : steps (with_sep slash ([c] :: l)) ++ e = slash :: c :: (steps (with_sep slash l) ++ e)) by reflexivity.
  assert (Fl := slash_steps t l F). assert (Te := slash_tail t e E).
  assert (NF : forall x, In x [":"; ";"; "*"; "["]%char -> ~ In x (steps (with_sep slash ([c] :: l)) ++ e)).
  { intros x H I. rewrite Q in I. destruct I as [I | [I | I]]; [subst; cbn in H; intuition discriminate | revert I; apply (letter_free c x L); cbn in *; tauto|]. apply in_app_iff in I. destruct I as [I | I]; revert I; [now apply (sep_steps_free t) | now apply (sep_tail_free t)]. }
  eapply ev_read; [intros f; apply other_w; apply no_colon_other; apply NF; cbn; tauto|]. unfold rest_w.
  rewrite (starts_false _ (lit "local:")) by (rewrite Q; intros (z & H); discriminate). cbn [bind].
  rewrite (starts_false _ (lit "//")) by (rewrite Q; intros (z & H); injection H as H _; revert H; apply (letter_free c slash L); cbn; tauto). cbn [bind].
  rewrite not_path by (apply NF; first [apply separator_in | cbn; tauto]). cbn [bind]. rewrite Q. destruct (letter_alpha c L) as [A SC].
  assert (D : heuristic_is_default_w (slash :: c :: steps (with_sep slash l) ++ e) = Ok false).
  { unfold heuristic_is_default_w. destruct (len (slash :: c :: steps (with_sep slash l) ++ e) <? 2); [reflexivity|]. reflexivity. }
  rewrite D. cbn [bind]. assert (M : heuristic_is_mingw_default (slash :: c :: steps (with_sep slash l) ++ e) t = Ok true).
  { assert (L2 : (2 <=? len (slash :: c :: steps (with_sep slash l) ++ e)) = true) by (rewrite !len_cons; assert (X := len_nonneg (steps (with_sep slash l) ++ e)); lia).
    assert (R : (let* a := getZ (slash :: c :: steps (with_sep slash l) ++ e) 0 in let* b := getZ (slash :: c :: steps (with_sep slash l) ++ e) 1 in if ceqb a "/" && is_alpha b then if len (slash :: c :: steps (with_sep slash l) ++ e) =? 2 then Ok true else let* c := getZ (slash :: c :: steps (with_sep slash l) ++ e) 2 in Ok (ceqb c "/") else Ok false) = Ok true).
    { change (getZ (slash :: c :: steps (with_sep slash l) ++ e) 0) with (Ok slash). change (getZ (slash :: c :: steps (with_sep slash l) ++ e) 1) with (Ok c). cbn [bind]. rewrite A. change (ceqb slash "/") with true. cbn [andb].
      assert (H : steps (with_sep slash l) ++ e = [] \/ exists r, steps (with_sep slash l) ++ e = slash :: r) by (destruct l as [| s l]; [destruct E as [-> | ->]; [now left | right; now exists []] | right; now exists ((s ++ steps (with_sep slash l)) ++ e)]).
      destruct H as [-> | (r & ->)]; [reflexivity|]. assert (L3 : (len (slash :: c :: slash :: r) =? 2) = false) by (rewrite !len_cons; assert (X := len_nonneg r); lia). rewrite L3. reflexivity. }
    unfold heuristic_is_mingw_default. rewrite L2. destruct t; [congruence | exact R | exact R | exact R]. }
  rewrite M. cbn [bind andb]. assert (S : substr (slash :: c :: steps (with_sep slash l) ++ e) 0 2 ++ lit ":" ++ substr (slash :: c :: steps (with_sep slash l) ++ e) 2 (len (slash :: c :: steps (with_sep slash l) ++ e)) = steps ((slash, [c; ":"%char]) :: with_sep slash l) ++ e).
  { assert (S1 := substr_seg [] [slash; c] (steps (with_sep slash l) ++ e) 0 2 eq_refl eq_refl). assert (S2 := substr_seg [slash; c] (steps (with_sep slash l) ++ e) [] 2 (len (slash :: c :: steps (with_sep slash l) ++ e)) eq_refl). rewrite app_nil_r in S2. cbn [app] in S1, S2. rewrite S1, S2 by (unfold len; cbn [length]; lia). reflexivity. }
  rewrite S. unfold root_w. eapply ev_bind; [|apply mulw_default; [discriminate|]].
  - exists O. intros f _. unfold name_w. assert (H := gn_steps f (atom_w true env t f) t ((slash, [c; ":"%char]) :: with_sep slash l) e Te). unfold parts_of in H. cbn [map snd] in H. fold (parts_of (with_sep slash l)) in H. rewrite drop_letter, (parts_plain t), map_snd_with in H by auto. apply H; [| |discriminate].
    + constructor; [split; [now right | now apply good_letter]|]. now apply gsteps_plain.
    + constructor; [now apply letter_named|]. eapply Forall_impl; [|exact F]. exact plain_named.
  - constructor; [now apply letter_named|]. eapply Forall_impl; [|exact F]. exact plain_named.
Qed.
Lemma print_other mingw t l : l <> [] -> (mingw = true \/ t <> SYSTEM) -> as_string_w mingw (rooted default (atoms l)) t = steps (with_sep (concater t) l).
Proof.
  intros N M. destruct l as [| h l]; [congruence|]. change (rooted default (atoms (h :: l))) with (Concat default (path (atoms (h :: l)))).
  assert (E : negb mingw && is_system t = false) by (destruct M as [-> | M]; [reflexivity|]; destruct t; [congruence | | |]; apply Bool.andb_false_r).
  cbn [as_string_w]. rewrite print_path_w. change (is_root_of default (lit "default")) with true. change (is_root_of default (lit "file")) with false. change (is_root default) with true. cbn [negb andb orb]. rewrite Bool.orb_false_r.
  rewrite E. rewrite Bool.andb_false_r. assert (B : negb (is_concat (path (atoms (h :: l)))) && negb (is_atomic (path (atoms (h :: l)))) = false) by (destruct l; reflexivity). rewrite B. reflexivity.
Qed.
(** ** file:// *)
Lemma file_protocol : protocol_name (lit "file").
Proof. split; [cbn; lia|]. repeat (constructor; [cbn; lia|]). constructor. Qed.
Lemma read_file_steps mingw env ty q us e : (forall i, ~ occurs_at (lit "://") q i) -> us <> [] -> Forall named us ->
  (forall f, get_name_w f (atom_w mingw env SYSTEM f) q SYSTEM = Ok (path (atoms us ++ trail e))) -> reads mingw env ty (lit "file://" ++ q) (rooted file (atoms us ++ trail e)).
Proof.
  intros O N F G. eapply ev_read; [intros f; apply (protocol_w mingw f env (lit "file") q ty file_protocol O)|]. change (read_as (lit "file") ty) with SYSTEM. unfold root_w, name_w.
  eapply ev_bind; [exists 0%nat; intros f _; apply G|]. now apply mulw_file.
Qed.
Lemma no_colon_occurs q : ~ In ":"%char q -> forall i, ~ occurs_at (lit "://") q i.
Proof. intros N i (p & r & -> & _). apply N. apply in_app_iff. right. now left. Qed.
Lemma read_file_drive mingw env ty c l e : letter c -> Forall step l -> closing e ->
  reads mingw env ty (lit "file:///" ++ drive_text c l ++ e) (rooted file (atoms ([c] :: map snd l) ++ trail e)).
Proof.
  intros L F E. change (lit "file:///" ++ drive_text c l ++ e) with (lit "file://" ++ (steps ((slash, [c; ":"%char]) :: l) ++ e)). apply read_file_steps.
  - intros i (p & r & H & _). change (steps ((slash, [c; ":"%char]) :: l) ++ e) with (slash :: c :: ":"%char :: steps l ++ e) in H.
    assert (NC : ~ In ":"%char (steps l ++ e)) by (intros I; apply in_app_iff in I; destruct I as [I | I]; revert I; [apply (steps_free _ _ F) | apply (closing_free _ _ E)]; cbn; tauto).
    destruct p as [| x [| y [| z p]]]; cbn [app] in H.
    + discriminate.
    + injection H as _ H _. revert H. apply (letter_free c ":" L). cbn. tauto.
    + injection H as _ _ H. destruct F as [| [a s] l [Sa P] F].
      * destruct E as [-> | [-> | ->]]; discriminate.
      * cbn [steps flat_map fst snd app] in H. injection H as _ H. destruct s as [| b s]; [destruct P; cbn in *; congruence|]. injection H as -> _. apply (plain_in ("/"%char :: s) "/"%char P); [now left | cbn; tauto].
    + injection H as _ _ _ H. apply NC. rewrite H. apply in_app_iff. right. now left.
  - discriminate.
  - constructor; [now apply letter_named | now apply plain_steps].
  - intros f. assert (H := gn_steps f (atom_w mingw env SYSTEM f) SYSTEM ((slash, [c; ":"%char]) :: l) e (closing_tail e E)). unfold parts_of in H. cbn [map snd] in H. fold (parts_of l) in H. rewrite drop_letter, (parts_plain SYSTEM) in H by now apply system_steps. apply H; [| |discriminate].
    + constructor; [split; [now right | now apply good_letter]|]. now apply gsteps_plain, system_steps.
    + constructor; [now apply letter_named | now apply plain_steps].
Qed.
Lemma read_file_server mingw env ty h l e : plain h -> Forall step l -> closing e -> reads mingw env ty (lit "file://" ++ h ++ steps l ++ e) (rooted file (atoms (h :: map snd l) ++ trail e)).
Proof.
  intros P F E. apply read_file_steps.
  - apply no_colon_occurs. intros I. apply in_app_iff in I. destruct I as [I | I]; [revert I; apply plain_not; [auto | cbn; tauto]|]. apply in_app_iff in I. destruct I as [I | I]; revert I; [apply (steps_free _ _ F) | apply (closing_free _ _ E)]; cbn; tauto.
  - discriminate.
  - constructor; [now apply plain_named | now apply plain_steps].
  - intros f. assert (H := gn_head f (atom_w mingw env SYSTEM f) SYSTEM l e). rewrite (parts_plain SYSTEM) in H by now apply system_steps. rewrite <- (drop_plain h P) at 2.
    apply H; [now apply closing_tail | now apply gsteps_plain, system_steps | now apply plain_steps | now apply good_plain | rewrite drop_plain by auto; now apply plain_named].
Qed.
Lemma print_file h s l t : as_string_w false (rooted file (atoms (h :: s :: l))) t =
  if len h =? 1 then lit "file:///" ++ h ++ lit ":" ++ steps (with_sep (concater t) (s :: l)) else lit "file://" ++ h ++ [slash] ++ s ++ steps (with_sep (concater t) l).
Proof.
  change (rooted file (atoms (h :: s :: l))) with (Concat file (Concat (Atom h) (path (atoms (s :: l))))). cbn [as_string_w]. rewrite print_path_w.
  change (is_root_of file (lit "default")) with false. change (is_root_of file (lit "file")) with true. cbn [is_root file negb andb orb is_concat is_name]. rewrite ?Bool.andb_false_r. destruct (len h =? 1); cbn [andb negb]; reflexivity.
Qed.
Lemma print_file1 h t : as_string_w false (rooted file (atoms [h])) t = if len h =? 1 then lit "file:///" ++ h ++ lit ":" ++ [concater t] else lit "file://" ++ h ++ [slash].
Proof.
  change (rooted file (atoms [h])) with (Concat file (Atom h)). cbn [as_string_w].
  change (is_root_of file (lit "default")) with false. change (is_root_of file (lit "file")) with true. cbn [is_root file negb andb orb is_concat is_name is_atomic]. rewrite ?Bool.andb_false_r. destruct (len h =? 1); cbn [andb negb]; rewrite ?app_nil_r; reflexivity.
Qed.
Lemma concater_sep t : concater t = sep_of t.
Proof. destruct t; reflexivity. Qed.
Lemma with_steps x l : x = slash \/ x = bslash -> Forall plain l -> Forall step (with_sep x l).
Proof. intros X F. apply Forall_map. eapply Forall_impl; [|exact F]. intros s P. split; auto. Qed.
Lemma sep_of_cases t : sep_of t = slash \/ sep_of t = bslash.
Proof. destruct t; auto. Qed.
Lemma file_round mingw env ty t c l e : letter c -> Forall plain l -> closing e -> l <> [] \/ e <> [] ->
  as_string_w false (rooted file (atoms ([c] :: l) ++ ending e)) t = lit "file:///" ++ drive_text c (with_sep (sep_of t) l) ++ (match e with [] => [] | _ => [sep_of t] end)
  /\ reads mingw env ty (as_string_w false (rooted file (atoms ([c] :: l) ++ ending e)) t) (rooted file (atoms ([c] :: l) ++ ending e)).
Proof.
  intros L F E N. assert (P : as_string_w false (rooted file (atoms ([c] :: l) ++ ending e)) t = lit "file:///" ++ drive_text c (with_sep (sep_of t) l) ++ (match e with [] => [] | _ => [sep_of t] end)).
  { rewrite trail_app. cbn [app]. assert (H : l ++ match e with [] => [] | _ => [[]] end <> []) by (intros H; apply app_eq_nil in H; destruct H as [H1 H2]; destruct e; [tauto | discriminate]).
    destruct (l ++ match e with [] => [] | _ => [[]] end) as [| s r] eqn:Q; [congruence|]. rewrite print_file, <- Q, concater_sep, with_app, steps_app. change (len [c] =? 1) with true. cbn iota.
    unfold drive_text. rewrite <- app_comm_cons. destruct e; reflexivity. }
  split; [exact P|]. rewrite P. assert (C : closing match e with [] => [] | _ => [sep_of t] end) by (destruct e; [now left | destruct (sep_of_cases t) as [-> | ->]; unfold closing; auto]).
  assert (Q := read_file_drive mingw env ty c (with_sep (sep_of t) l) _ L (with_steps _ _ (sep_of_cases t) F) C). rewrite map_snd_with in Q. destruct e; exact Q.
Qed.
Lemma file_server_round mingw env ty t h l e : plain h -> (2 <= length h)%nat -> Forall plain l -> closing e -> l <> [] \/ e <> [] ->
  reads mingw env ty (as_string_w false (rooted file (atoms (h :: l) ++ ending e)) t) (rooted file (atoms (h :: l) ++ ending e)).
Proof.
  intros Ph Lh F E N. assert (LH : (len h =? 1) = false) by (unfold len; lia).
  assert (P : exists l', Forall step l' /\ map snd l' = l /\ exists e', closing e' /\ ending e' = ending e /\ as_string_w false (rooted file (atoms (h :: l) ++ ending e)) t = lit "file://" ++ h ++ steps l' ++ e').
  { destruct l as [| s l].
    - exists []. repeat split; [constructor|]. exists [slash]. repeat split; [right; now left | destruct e; [tauto | reflexivity] |]. destruct e; [tauto|]. change (atoms [h] ++ ending (a :: e)) with (atoms [h; []]). rewrite print_file, LH. reflexivity.
    - inversion F as [| ? ? Ps F']; subst. exists ((slash, s) :: with_sep (sep_of t) l). split; [constructor; [split; [now left | auto] | now apply with_steps; [apply sep_of_cases|]]|]. split; [cbn [map snd]; now rewrite map_snd_with|].
      exists (match e with [] => [] | _ => [sep_of t] end). split; [destruct e; [now left | destruct (sep_of_cases t) as [-> | ->]; unfold closing; auto]|]. split; [destruct e; reflexivity|].
      rewrite trail_app. cbn [app]. rewrite print_file, LH, concater_sep, with_app, steps_app. change (steps ((slash, s) :: with_sep (sep_of t) l)) with ((slash :: s) ++ steps (with_sep (sep_of t) l)). destruct e; cbn [app]; rewrite ?app_nil_r, <- ?app_assoc; reflexivity. }
  destruct P as (l' & F' & M & e' & C & Ee & ->). rewrite <- M, <- Ee. now apply read_file_server.
Qed.
Lemma file_drive_refuted mingw env t c : letter c -> as_string_w false (rooted file (atoms [[c]])) t = lit "file:///" ++ [c] ++ lit ":" ++ [sep_of t]
  /\ reads mingw env t (as_string_w false (rooted file (atoms [[c]])) t) (rooted file (atoms [[c]; []])) /\ reads mingw env t (lit "file:///" ++ [c] ++ lit ":") (rooted file (atoms [[c]])).
Proof.
  intros L. assert (P : as_string_w false (rooted file (atoms [[c]])) t = lit "file:///" ++ [c] ++ lit ":" ++ [sep_of t]) by (rewrite print_file1, concater_sep; reflexivity). split; [exact P|]. split.
  - rewrite P. assert (Q := read_file_drive mingw env t c [] [sep_of t] L (Forall_nil _)). apply Q. destruct (sep_of_cases t) as [-> | ->]; unfold closing; auto.
  - assert (Q := read_file_drive mingw env t c [] [] L (Forall_nil _)). apply Q. now left.
Qed.
(** ** Alternatives *)
Lemma path_w_step mingw f env name t k i : path_w mingw f env name t (S k) i =
  if i =? len name then Ok url_none
  else
    let* j := to_sep (S (length name)) (separator t) name i in
    let* u := general_w mingw f env (substr name i j) t in
    if j =? len name then Ok u
    else if i =? j then path_w mingw f env name t k (j + 1)
    else let* r := path_w mingw f env name t k (j + 1) in Ok (uor u r).
Proof. reflexivity. Qed.
Definition entry (s : str) : Prop := s <> [] /\ ~ In ";"%char s /\ ~ In "["%char s.
Lemma path_w_spec mingw f env : forall ss us p k, ss <> [] -> Forall entry ss -> Forall2 (fun s u => general_w mingw f env s SYSTEM = Ok u) ss us -> (length ss < k)%nat ->
  path_w mingw f env (p ++ listed ss) SYSTEM k (len p) = Ok (alternatives us).
Proof.
  unfold listed. induction ss as [| s ss IH]; intros us p k N F G Lk; [congruence|]. inversion F as [| ? ? (E1 & E2 & E3) F']; subst. inversion G as [| ? u ? us' Gs G']; subst.
  destruct k as [| k]; [cbn in Lk; lia|]. rewrite path_w_step. change (separator SYSTEM) with ";"%char. assert (Ls : 0 < len s) by (destruct s; [congruence|]; rewrite len_cons; assert (X := len_nonneg s); lia).
  destruct ss as [| s2 ss].
  - inversion G'; subst. cbn [Search.join]. assert (L : (len p =? len (p ++ s)) = false) by (rewrite len_app; lia). rewrite L.
    assert (T := to_sep_spec ";" [] I (length s) s (S (length (p ++ s))) p (len p)). rewrite app_nil_r in T. rewrite T by (auto; rewrite ?app_length; lia). cbn [bind].
    assert (S := substr_seg p s [] (len p) (len p + len s) eq_refl eq_refl). rewrite app_nil_r in S. rewrite S, Gs. cbn [bind]. rewrite len_app, Z.eqb_refl. cbn [alternatives fold_right]. now rewrite uor_none.
  - change (Search.join [";"%char] (s :: s2 :: ss)) with (s ++ ";"%char :: Search.join [";"%char] (s2 :: ss)). set (q := Search.join [";"%char] (s2 :: ss)) in *.
    assert (L : (len p =? len (p ++ s ++ ";"%char :: q)) = false) by (rewrite !len_app, len_cons; assert (X := len_nonneg q); lia). rewrite L.
    rewrite (to_sep_spec ";" (";"%char :: q) eq_refl (length s) s) by (auto; rewrite ?app_length; cbn [length]; lia). cbn [bind]. rewrite substr_seg by auto. rewrite Gs. cbn [bind].
    assert (L2 : (len p + len s =? len (p ++ s ++ ";"%char :: q)) = false) by (rewrite !len_app, len_cons; assert (X := len_nonneg q); lia). rewrite L2. assert (L3 : (len p =? len p + len s) = false) by lia. rewrite L3.
    assert (K := IH us' (p ++ s ++ [";"%char]) k ltac:(discriminate) F' G' ltac:(cbn in *; lia)). rewrite <- !app_assoc in K. cbn [app] in K.
    replace (len p + len s + 1) with (len (p ++ s ++ [";"%char])) by (rewrite !len_app; change (len [";"%char]) with 1; lia). rewrite K. reflexivity.
Qed.
Lemma denotes_entry s u : denotes s u -> entry s.
Proof.
  intros D. assert (X : forall c l e, In c [";"; "["]%char -> Forall step l -> closing e -> ~ In c (steps l ++ e)).
  { intros c l e H F E I. apply in_app_iff in I. destruct I as [I | I]; revert I; [apply (steps_free _ _ F) | apply (closing_free _ _ E)]; cbn in *; tauto. }
  destruct D as [c l e L F E | h l e P N F E | h l e (P & _) F E].
  - unfold drive_text. cbn [app]. split; [discriminate|]. split; (intros [I | [I | I]]; [revert I; apply (letter_free c _ L); cbn; tauto | discriminate | revert I; apply X; auto; cbn; tauto]).
  - unfold server_text. cbn [app]. rewrite <- app_assoc. split; [discriminate|]. split; (intros [I | [I | I]]; [discriminate | discriminate |]; apply in_app_iff in I; destruct I as [I | I]; revert I; [apply plain_not; [auto | cbn; tauto] | apply X; auto; cbn; tauto]).
  - assert (NH : h <> []) by apply P. split; [destruct h; [congruence | discriminate]|]. split; intros I; apply in_app_iff in I; (destruct I as [I | I]; revert I; [apply plain_not; [auto | cbn; tauto] | apply X; auto; cbn; tauto]).
Qed.
(** a colon stands after the letter of a drive only *)
Lemma denotes_colon s u p q : denotes s u -> s = p ++ ":"%char :: q -> (length p = 1)%nat.
Proof.
  intros D Q. assert (X : forall l e, Forall step l -> closing e -> ~ In ":"%char (steps l ++ e)).
  { intros l e F E I. apply in_app_iff in I. destruct I as [I | I]; revert I; [apply (steps_free _ _ F) | apply (closing_free _ _ E)]; cbn in *; tauto. }
  destruct D as [c l e L F E | h l e P N F E | h l e (P & _) F E].
  - unfold drive_text in Q. cbn [app] in Q. destruct p as [| x [| y p]]; [injection Q as Q _; exfalso; revert Q; apply (letter_free c _ L); cbn; tauto | reflexivity|]. injection Q as _ _ Q. exfalso. apply (X l e F E). rewrite Q. apply in_app_iff. right. now left.
  - exfalso. assert (I : In ":"%char (server_text h l ++ e)) by (rewrite Q; apply in_app_iff; right; now left). unfold server_text in I. cbn [app] in I. rewrite <- app_assoc in I. destruct I as [I | [I | I]]; [discriminate | discriminate |]. apply in_app_iff in I. destruct I as [I | I]; revert I; [apply plain_not; [auto | cbn; tauto] | apply X; auto].
  - exfalso. assert (I : In ":"%char (h ++ steps l ++ e)) by (rewrite Q; apply in_app_iff; right; now left). apply in_app_iff in I. destruct I as [I | I]; revert I; [apply plain_not; [auto | cbn; tauto] | apply X; auto].
Qed.
Lemma denotes_double s u q : denotes s u -> s <> lit "//" ++ q.
Proof.
  intros D Q. destruct D as [c l e L F E | h l e P N F E | h l e (P & _) F E].
  - injection Q as Q _. revert Q. apply (letter_free c _ L). cbn. tauto.
  - discriminate.
  - destruct h as [| x h]; [destruct P; congruence|]. injection Q as -> _. apply (plain_in ("/"%char :: h) "/"%char P); [now left | cbn; tauto].
Qed.
Lemma cut_before (s r p q : str) c : s ++ ";"%char :: r = p ++ c :: q -> ~ In ";"%char p -> c <> ";"%char -> exists q', s = p ++ c :: q'.
Proof.
  revert p. induction s as [| x s IH]; intros p E N C.
  - destruct p as [| y p]; cbn in E; injection E as E1 E2; [congruence|]. exfalso. apply N. now left.
  - destruct p as [| y p]; cbn in E; injection E as E1 E2; [subst; now exists s|]. subst. destruct (IH p E2) as (q' & ->); [intros I; apply N; now right | auto|]. now exists q'.
Qed.
Lemma read_list mingw env ss us : ss <> [] -> Forall2 denotes ss us -> reads mingw env SYSTEM (listed ss) (alternatives us).
Proof.
  intros N F. destruct F as [| s u ss us D F]; [congruence|]. destruct F as [| s2 u2 ss us D2 F].
  { cbn [alternatives fold_right]. rewrite uor_none. now apply denotes_reads. }
  assert (FA : Forall2 denotes (s :: s2 :: ss) (u :: u2 :: us)) by auto.
  assert (FE : Forall entry (s :: s2 :: ss)) by (clear - FA; induction FA; constructor; eauto using denotes_entry).
  unfold listed. change (Search.join [";"%char] (s :: s2 :: ss)) with (s ++ ";"%char :: Search.join [";"%char] (s2 :: ss)). set (q := Search.join [";"%char] (s2 :: ss)).
  eapply ev_read; [intros f; apply other_w|].
  { intros p r Q PN. assert (NS : ~ In ";"%char p) by (intros I; destruct PN as [_ PN]; rewrite Forall_forall in PN; specialize (PN _ I); change (code ";") with 59 in PN; lia).
    destruct (cut_before s q p ("/"%char :: "/"%char :: r) ":" Q NS) as (q' & Q'); [discriminate|]. assert (L := denotes_colon s u _ _ D Q'). destruct PN as [PN _]. lia. }
  unfold rest_w. rewrite (starts_false _ (lit "local:")).
  2: { intros (r & Q). destruct (cut_before s q (lit "local") r ":" Q) as (q' & Q'); [cbn; intuition discriminate | discriminate |]. assert (L := denotes_colon s u _ _ D Q'). discriminate L. }
  rewrite (starts_false _ (lit "//")).
  2: { intros (r & Q). destruct (cut_before s q (lit "/") r "/" Q) as (q' & Q'); [cbn; intuition discriminate | discriminate |]. now apply (denotes_double s u q' D). }
  cbn [bind]. assert (HP : heuristic_is_path_w (s ++ ";"%char :: q) SYSTEM = Ok true).
  { unfold heuristic_is_path_w. apply (path_loop_yes ";"%char ltac:(discriminate) s [] q); [rewrite app_length; lia | reflexivity |]. apply (denotes_entry s u D). }
  rewrite HP. cbn [bind].
  assert (EV : exists n, forall f, (n <= f)%nat -> Forall2 (fun s u => general_w mingw f env s SYSTEM = Ok u) (s :: s2 :: ss) (u :: u2 :: us)).
  { clear - FA. induction FA as [| t v ts vs D F (m & IH)]; [exists O; constructor|]. destruct (denotes_reads mingw env t v D) as (n & H). exists (Nat.max n m). intros f L. constructor; [apply H | apply IH]; lia. }
  destruct EV as (n & EV). exists n. intros f L. apply (path_w_spec mingw f env (s :: s2 :: ss) (u :: u2 :: us) [] _ ltac:(discriminate) FE (EV f L)).
  assert (LEN : forall ts, Forall entry ts -> (length ts <= length (Search.join [";"%char] ts))%nat).
  { clear. intros ts F. induction F as [| t ts (E & _) F IH]; [cbn; lia|]. destruct ts as [| t2 ts]; [destruct t; [congruence | cbn; lia]|].
    change (Search.join [";"%char] (t :: t2 :: ts)) with (t ++ ";"%char :: Search.join [";"%char] (t2 :: ts)). rewrite app_length. cbn [length] in *. lia. }
  specialize (LEN _ FE). change (Search.join [";"%char] (s :: s2 :: ss)) with (s ++ ";"%char :: q) in LEN. lia.
Qed.
Lemma denotes_name s u : denotes s u -> is_name_in_path u = true.
Proof.
  assert (N : forall l, l <> [] -> is_name (path (atoms l)) = true).
  { induction l as [| s0 [| s1 l] IH]; intros Hl; [congruence | reflexivity|]. change (atoms (s0 :: s1 :: l)) with (Atom s0 :: atoms (s1 :: l)). rewrite path_cons by discriminate. cbn [is_name andb]. apply IH. discriminate. }
  assert (R : forall l, l <> [] -> is_name_in_path (rooted default (atoms l)) = true).
  { intros l Hl. destruct l as [| h l]; [congruence|]. change (rooted default (atoms (h :: l))) with (Concat default (path (atoms (h :: l)))). unfold is_name_in_path. change (is_root_of default (lit "default")) with true. rewrite N by discriminate. apply Bool.orb_true_r. }
  intros [c l e L F E | h l e P Q F E | h l e (P & _) F E].
  - destruct l; [cbn [ending_after]; rewrite app_nil_r; apply R; discriminate|]. cbn [ending_after]. rewrite trail_app. apply R. discriminate.
  - destruct l; [cbn [ending_after]; rewrite app_nil_r; apply R; discriminate|]. cbn [ending_after]. rewrite trail_app. apply R. discriminate.
  - rewrite trail_app. unfold is_name_in_path. rewrite N by discriminate. reflexivity.
Qed.
Lemma or_list_w us : us <> [] -> Forall (fun u => exists s, denotes s u) us ->
  exists vs, vs <> [] /\ Forall (fun u => exists s, denotes s u) vs /\ alternatives us = ors vs /\ alternatives vs = ors vs.
Proof.
  intros NE F. induction F as [| u us R F IH]; [congruence|]. destruct us as [| w us].
  - exists [u]. repeat split; auto; try congruence; cbn; apply uor_none.
  - destruct (IH ltac:(congruence)) as (vs & Nv & Fv & E & Ev). assert (R' := R). destruct R' as (s & D). assert (Nu := name_in_path_kind u (denotes_name s u D)). rewrite alternatives_cons, E.
    destruct vs as [| v vs]; [congruence|]. assert (Rv := Forall_inv Fv). destruct Rv as (sv & Dv). assert (Kv := ors_kind v vs (denotes_name sv v Dv)).
    assert (DD : uor u (ors (v :: vs)) = ors (v :: vs) \/ uor u (ors (v :: vs)) = ors (u :: v :: vs)).
    { rewrite uor_single by (try apply Nu; auto). destruct (ueqb u (ors (v :: vs))); [now left|]. destruct vs as [| v' vs]; cbn [ors].
      - destruct v; auto. destruct (ueqb u v1); auto.
      - destruct (ueqb u v); auto. }
    destruct DD as [DD | DD].
    + exists (v :: vs). rewrite DD. repeat split; auto; congruence.
    + exists (u :: v :: vs). rewrite alternatives_cons, Ev, DD. repeat split; auto; congruence.
Qed.
Lemma print_ors_w vs : vs <> [] -> Forall (fun u => exists s, denotes s u) vs -> as_string_w false (ors vs) SYSTEM = listed (map (fun u => as_string_w false u SYSTEM) vs).
Proof.
  unfold listed. induction vs as [| u [| v vs] IH]; intros N F; [congruence | reflexivity|]. assert (R := Forall_inv F). assert (F' := Forall_inv_tail F). destruct R as (s & D).
  change (ors (u :: v :: vs)) with (Or u (ors (v :: vs))). cbn [as_string_w]. rewrite (denotes_name s u D), IH by (auto; congruence). cbn [negb].
  replace (negb (is_or (ors (v :: vs))) && negb (is_name_in_path (ors (v :: vs)))) with false; [reflexivity|].
  destruct vs; [cbn [ors]; destruct (Forall_inv F') as (s' & D'); rewrite (denotes_name s' v D'); now rewrite Bool.andb_false_r | reflexivity].
Qed.
Lemma list_round mingw env ss us : ss <> [] -> Forall2 denotes ss us -> reads mingw env SYSTEM (as_string_w false (alternatives us) SYSTEM) (alternatives us).
Proof.
  intros N F. assert (G : Forall (fun u => exists s, denotes s u) us) by (clear N; induction F; constructor; eauto). assert (NU : us <> []) by (intros ->; inversion F; congruence).
  destruct (or_list_w us NU G) as (vs & Nv & Fv & -> & Ev). rewrite print_ors_w by auto. rewrite <- Ev. apply read_list; [destruct vs; [congruence | discriminate]|].
  clear - Fv. induction Fv as [| v vs (s & D) F IH]; [constructor|]. cbn [map]. constructor; [now apply (denotes_again s) | exact IH].
Qed.
(** ** Products *)
Lemma plain_proper l : Forall plain l -> Forall proper (atoms l).
Proof. intros F. apply atoms_proper. eapply Forall_impl; [|exact F]. exact plain_named. Qed.
Lemma drive_product h l b : named h -> Forall plain l -> l <> [] -> Forall piece b -> product_w (at_ h l) (path b) (rooted default (no_ups (walk (atoms (h :: l)) b))).
Proof.
  intros H F N B. apply mulw_long; [|destruct l; [congruence | cbn; lia] | exact B]. constructor; [now apply named_prop | now apply plain_proper].
Qed.
Lemma drive_top h b : named h -> Forall piece b -> product_w (at_ h []) (path b) (rooted default (Atom h :: no_ups b)).
Proof. intros H B. apply mulw_short; [now apply named_prop | exact B]. Qed.
Lemma drive_head h l x : named h -> Forall plain (l ++ [x]) -> head_w_is (at_ h (l ++ [x])) (at_ h l) /\ head_w_is (at_ h []) (at_ h []).
Proof.
  intros H F. split.
  - unfold head_w_is, head_w. assert (Q := drive_product h (l ++ [x]) [up] H F). assert (N : l ++ [x] <> []) by (destruct l; discriminate). specialize (Q N (Forall_cons _ up_piece (Forall_nil _))).
    assert (E : no_ups (walk (atoms (h :: l ++ [x])) [up]) = atoms (h :: l)).
    { change (h :: l ++ [x]) with ((h :: l) ++ [x]). unfold atoms. rewrite map_app. cbn [map]. change (map Atom (h :: l) ++ [Atom x]) with (atoms (h :: l) ++ [Atom x]).
      apply Forall_app in F. destruct F as [F Fx]. rewrite walk_up by (apply UrlProofs.proper_up, named_prop, plain_named; exact (Forall_inv Fx)). apply proper_no_ups. constructor; [now apply named_prop | now apply plain_proper]. }
    rewrite E in Q. exact Q.
  - assert (Q := drive_top h [up] H (Forall_cons _ up_piece (Forall_nil _))). exact Q.
Qed.
Lemma drive_append h l b : named h -> Forall plain l -> Forall plain b -> b <> [] -> product_w (at_ h l) (path (atoms b)) (at_ h (l ++ b)).
Proof.
  intros H F B N. assert (PB : Forall piece (atoms b)) by (apply UrlProofs.comps_pieces, UrlProofs.proper_comp; now apply plain_proper).
  assert (HB : forall x r, atoms b = x :: r -> is_up x = false) by (intros x r E; apply UrlProofs.proper_up; assert (Q := plain_proper b B); rewrite E in Q; exact (Forall_inv Q)).
  destruct l as [| s l].
  - assert (Q := drive_top h (atoms b) H PB). assert (E : no_ups (atoms b) = atoms b) by (apply proper_no_ups; now apply plain_proper). rewrite E in Q. exact Q.
  - assert (Q := drive_product h (s :: l) (atoms b) H F ltac:(discriminate) PB). rewrite walk_app in Q by (destruct (atoms b) eqn:E; [auto | eapply HB; eauto]).
    assert (E : no_ups (atoms (h :: s :: l) ++ atoms b) = atoms (h :: (s :: l) ++ b)).
    { unfold atoms. rewrite <- map_app. apply proper_no_ups. apply (atoms_proper ((h :: s :: l) ++ b)). apply Forall_app. split; [constructor; [auto|]; eapply Forall_impl; [|exact F]; exact plain_named | eapply Forall_impl; [|exact B]; exact plain_named]. }
    rewrite E in Q. exact Q.
Qed.
(** ** What goes wrong *)
Lemma one_letter_server mingw env c l e : letter c -> Forall step l -> closing e ->
  reads mingw env SYSTEM (server_text [c] l ++ e) (rooted default (atoms ([c] :: map snd l) ++ ending_after l e)).
Proof.
  intros L F E. apply read_server; auto. destruct (letter_named c L) as (N1 & N2 & N3). repeat split; auto.
  - intros Q. injection Q as ->. unfold letter in L. cbn in L. lia.
  - cbn. apply (letter_free c _ L). cbn. tauto.
  - constructor; [|constructor]. intros I. apply (letter_free c c L); [cbn in *; tauto | reflexivity].
Qed.
Lemma leaves_drive c a b : letter c -> plain a -> plain b -> product_w (at_ [c] [a]) (path (Atom (lit "..") :: Atom (lit "..") :: atoms [b])) (at_ b []).
Proof.
  intros L A B. assert (Q := drive_product [c] [a] (Atom (lit "..") :: Atom (lit "..") :: atoms [b]) (letter_named c L) (Forall_cons _ A (Forall_nil _)) ltac:(discriminate)).
  assert (E : no_ups (walk (atoms [[c]; a]) (Atom (lit "..") :: Atom (lit "..") :: atoms [b])) = atoms [b]).
  { unfold walk. cbn [atoms map rev app walk_rev]. assert (UA : is_up (Atom a) = false) by (apply UrlProofs.proper_up, named_prop, plain_named; exact A). assert (UC : is_up (Atom [c]) = false) by (apply UrlProofs.proper_up, named_prop, letter_named; exact L).
    rewrite UA, UC. change (is_up (Atom (lit ".."))) with true. cbn [andb negb]. apply proper_no_ups. now apply (plain_proper [b]); constructor. }
  replace (at_ b []) with (rooted default (no_ups (walk (atoms [[c]; a]) (Atom (lit "..") :: Atom (lit "..") :: atoms [b])))) by (rewrite E; reflexivity). apply Q. constructor; [exact up_piece|]. constructor; [exact up_piece|]. apply UrlProofs.comps_pieces, UrlProofs.proper_comp. now apply (plain_proper [b]); constructor.
Qed.
Lemma negative_undefined mingw env x y s : schar x < -1 -> ~ In ";"%char (x :: y :: s) -> ~ In "["%char (x :: y :: s) -> ~ In ":"%char (x :: y :: s) -> eventually (fun f => general_w mingw f env (x :: y :: s) SYSTEM) UB.
Proof.
  intros X N B C. eapply ev_read; [intros f; apply other_w; now apply no_colon_other|]. unfold rest_w.
  assert (NX : forall c, -1 <= schar c -> x <> c) by (intros c H ->; lia).
  rewrite !starts_false by (intros (r & H); injection H as H _; revert H; apply NX; vm_compute; discriminate). cbn [bind]. rewrite not_path by auto. cbn [bind].
  unfold heuristic_is_default_w. assert (L2 : (len (x :: y :: s) <? 2) = false) by (rewrite !len_cons; assert (Q := len_nonneg s); lia). rewrite L2.
  change (getZ (x :: y :: s) 0) with (Ok x). change (getZ (x :: y :: s) 1) with (Ok y). cbn [bind]. assert (E : ceqb x backslash = false) by (apply ceqb_false; apply NX; vm_compute; discriminate). rewrite E. cbn [andb].
  assert (S : (schar x <? -1) = true) by lia. rewrite S. cbn [bind]. apply ev_const.
Qed.
(** A test for plain names *)
Definition plainb (s : str) : bool :=
  negb (seqb s []) && negb (seqb s (lit ".")) && negb (seqb s (lit "..")) && negb (seqb s (lit "~")) && negb (ceqb (hd slash s) "$")
  && forallb (fun c => negb (existsb (ceqb c) [slash; bslash; ":"; ";"; "*"; "["]%char)) s.
Lemma plainb_plain s : plainb s = true -> plain s.
Proof.
  intros H. unfold plainb in H. repeat (apply andb_prop in H; destruct H as [H ?]). unfold plain.
  repeat match goal with K : negb (seqb _ _) = true |- _ => apply Bool.negb_true_iff, seqb_neq in K end.
  repeat split; auto.
  - intros E. rewrite E in *. discriminate.
  - apply Forall_forall. intros c I J. match goal with K : forallb _ s = true |- _ => rewrite forallb_forall in K; specialize (K c I); apply Bool.negb_true_iff in K end.
    assert (X : existsb (ceqb c) [slash; bslash; ":"; ";"; "*"; "["]%char = true) by (apply existsb_exists; exists c; split; [exact J | apply Ascii.eqb_refl]). congruence.
Qed.
