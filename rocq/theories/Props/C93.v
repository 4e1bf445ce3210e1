(** C93  The session: arguments, the name of the user, the language. *)
From Coq Require Import Lia.
From Verif Require Import Base Model.Int Model.Str Model.Unicode Model.Locale Model.Session Spec.Utf8 Spec.Unicode Spec.Locale Spec.Session
  Proofs.UnicodeProofs Proofs.SessionProofs.
Local Open Scope Z_scope.

(** On Windows an object of class args makes argc and argv the arguments of the program in UTF-8, with NULL behind the
    last.  Missing: empty arguments, see below. *)
Theorem C93_args_partial : forall conv args memories p, converts conv -> Forall session_text args -> Forall2 holds memories args ->
  exists q, fix_args conv (Some memories) p = Ok q
    /\ argc q = Z.of_nat (length args) /\ argv q = map (fun a => Some (utf8_text a)) args ++ [None].
Proof. exact fix_args_ok. Qed.
Print Assumptions C93_args_partial.
(** Without arguments from the system there are none. *)
Theorem C93_no_args : forall conv p, fix_args conv None p = Ok (Process 0 [None] (blocks p) (local p)).
Proof. exact fix_args_none. Qed.
Print Assumptions C93_no_args.
(** The destructor puts argc and argv back, whatever the program did with them and with other objects of the class in
    between; the memory of the system is given back. *)
Theorem C93_restored : forall conv answer body p q, run_stmt conv (Scope answer body) p = Ok q ->
  argc q = argc p /\ argv q = argv p /\ local q = local p.
Proof. exact scope_restores. Qed.
Print Assumptions C93_restored.
(** The memory of the arguments is never freed. *)
Theorem C93_leak_refuted : forall conv answer body p q, run_stmt conv (Scope answer body) p = Ok q ->
  blocks q = (blocks p + asked (Scope answer body))%nat.
Proof. exact scope_leaks. Qed.
Print Assumptions C93_leak_refuted.
(** If an argument is not converted, memory outside of it is written.  An empty argument is one if the library refuses texts
    without bytes. *)
Theorem C93_args_refuted : forall conv before w after p ts, convert_all conv before = Ok ts ->
  conv UTF16 UTF8 (wide_bytes (wide_text w)) (len (wide_bytes (wide_text w)) * 4) = None ->
  fix_args conv (Some (before ++ w :: after)) p = UB.
Proof. exact convert_fails. Qed.
Print Assumptions C93_args_refuted.

(** The name of the user on Windows: the variable len is not set before the call, and may have any value [size].  The name is
    returned if this value happens to be large enough and the name has at most 99 units; otherwise the buffer is read although
    nothing was written to it, or is overrun. *)
Theorem C93_user_partial : forall conv cps size left, converts conv -> session_text cps ->
  let n := Z.of_nat (length (flat_map utf16_units cps)) in
  win_get_username conv (Some (flat_map utf16_units cps)) size left =
    if (n + 1 <=? size) && (n + 1 <=? 100) then Ok (utf8_text cps) else UB.
Proof. exact user_name. Qed.
Print Assumptions C93_user_partial.
Theorem C93_user_refuted : forall conv size left, win_get_username conv None size left = if left =? 0 then Ok [] else UB.
Proof. exact no_user_name. Qed.
Print Assumptions C93_user_refuted.

(** The language on Windows goes by the language of the system, British by its region; all languages that are not in
    the list are taken for English. *)
Theorem C93_windows_partial : forall language region name, In (language, name) windows_languages -> 0 <= region < 64 ->
  langid_language (langid language region) = name.
Proof. exact windows_language. Qed.
Print Assumptions C93_windows_partial.
Theorem C93_english : forall region, 0 <= region < 64 -> langid_language (langid 9 region) = if region =? 2 then lit "british" else lit "english".
Proof. exact windows_english. Qed.
Print Assumptions C93_english.
Theorem C93_other : forall language region, 0 <= language < 1024 -> 0 <= region < 64 -> (forall name, ~ In (language, name) windows_languages) ->
  language <> 9 -> language <> 4 -> language <> 26 -> langid_language (langid language region) = lit "english".
Proof. exact windows_other. Qed.
Print Assumptions C93_other.
(** Taiwan (region 1) is never told from other regions with Chinese, nor Serbian (regions 2, 3 and others) and Bosnian from Croatian. *)
Theorem C93_regions_refuted : forall region, 0 <= region < 64 ->
  langid_language (langid 4 region) = lit "chinese" /\ langid_language (langid 26 region) = lit "croatian".
Proof. exact windows_shared. Qed.
Print Assumptions C93_regions_refuted.
Theorem C93_taiwanese_refuted : forall lid, 0 <= lid -> langid_language lid <> lit "taiwanese".
Proof. exact no_taiwanese. Qed.
Print Assumptions C93_taiwanese_refuted.
(** All calls answer what the first one did. *)
Theorem C93_stable : forall lid lids, language_calls [] (lid :: lids) = repeat (langid_language lid) (S (length lids)).
Proof. exact calls_stable. Qed.
Print Assumptions C93_stable.

(** On macOS the code of the language decides.  Greek is not known by its code. *)
Theorem C93_mac_partial : forall l c, In (l, c) iso639 -> l <> lit "greek" -> mac_locale_language c = Ok l.
Proof. exact mac_language. Qed.
Print Assumptions C93_mac_partial.
Theorem C93_mac_other : forall s, len s < 50 -> ~ In (chr 0) s -> mac_locale_language s = Ok (locale_to_language s).
Proof. exact mac_other. Qed.
Print Assumptions C93_mac_other.
(** The code has no region: nobody gets British or Taiwanese. *)
Theorem C93_mac_refuted : forall s, len s < 5 -> mac_locale_language s <> Ok (lit "british") /\ mac_locale_language s <> Ok (lit "taiwanese").
Proof. exact mac_no_region. Qed.
Print Assumptions C93_mac_refuted.
(** Languages with codes of three letters are taken for others: Filipino (fil) and Konkani (kok). *)
Theorem C93_three_letters_refuted : mac_locale_language (lit "fil") = Ok (lit "finnish") /\ mac_locale_language (lit "kok") = Ok (lit "korean")
  /\ locale_to_language (lit "fil_PH.UTF-8") = lit "finnish" /\ locale_to_language (lit "kok_IN") = lit "korean".
Proof. repeat split. Qed.
Print Assumptions C93_three_letters_refuted.

(** The program "a" with the argument U+4E2D, in two nested scopes. *)
Example C93_example :
  let memories := [[0x61; 0; 7]; [0x4E2D; 0; 8]] in
  converts std_conv /\ Forall session_text [[0x61]; [0x4E2D]] /\ Forall2 holds memories [[0x61]; [0x4E2D]]
  /\ (let* q := fix_args std_conv (Some memories) (Process 1 [None] 0 0) in Ok (argc q, argv q)) = Ok (2, [Some (lit "a"); Some (lit "中"); None])
  /\ run_stmt std_conv (Scope (Some memories) [SetArgs 1 []; Scope None [SetArgs 7 []]]) (Process 1 [Some (lit "x"); None] 0 0)
     = Ok (Process 1 [Some (lit "x"); None] 2 0)
  /\ win_get_username std_conv (Some [0x4E2D]) 50 0 = Ok (lit "中") /\ win_get_username std_conv (Some [0x4E2D]) 1 0 = UB
  /\ langid_language 0x0404 = lit "chinese" /\ langid_language 0x0C07 = lit "german" /\ langid_language 0x0809 = lit "british".
Proof.
  split; [exact std_converts|]. split.
  { assert (S : forall c, scalar c -> c <> 0 -> Z.of_nat (length (utf8_text [c])) <= int_max -> session_text [c]).
    { intros c Sc N L. split; [discriminate|]. split; [now constructor|]. split; [intros [E | []]; now apply N | exact L]. }
    constructor; [|constructor; [|constructor]]; apply S; try discriminate; unfold scalar; try lia; vm_compute; discriminate. }
  split. { constructor; [exists [7]; reflexivity|]. constructor; [exists [8]; reflexivity | constructor]. }
  repeat split; vm_compute; reflexivity.
Qed.
