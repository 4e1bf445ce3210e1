(** What lolly asks of the session: the arguments of the program (lolly/system/args.hpp, args.cpp) and the
    name of the user (Plugins/Windows/win_sys_utils.cpp) on Windows, and the language on Windows and
    macOS (System/Language/locale.cpp).  Conversions are those of Model/Unicode.v. *)
From Verif Require Import Base Model.Int Model.Str Model.Unicode Model.Locale.
Local Open Scope Z_scope.

(** ** Arguments (args.hpp:18-43, args.cpp:30-55, Windows) *)
(** The variables argc and argv of main; argv is given by the C strings it points to (None: NULL).  [blocks] counts
    the arrays made by as_charp that are not freed, [local] the blocks of CommandLineToArgvW that are not freed. *)
Record process := Process { argc : Z; argv : list (option str); blocks : nat; local : nat }.
(** args.cpp:42-45: the loop; every argument is converted and copied by as_charp (string.cpp:255-263), whose result is a
    C string up to its first 0. *)
Fixpoint convert_all (conv : converter) (ws : list (list Z)) : res (list str) :=
  match ws with
  | [] => Ok []
  | w :: r => let* t := wchar_to_utf8 conv w in let* ts := convert_all conv r in Ok (c_chars t :: ts)
  end.
(** args.cpp:31-55 fix_args.  [answer] is what CommandLineToArgvW gives: None for NULL, or the memory of each argument.
    args_ has one more element than arguments, which stays 0 (line 40).  Exceptions (no memory) are left out. *)
Definition fix_args (conv : converter) (answer : option (list (list Z))) (p : process) : res process :=
  match answer with
  | None => Ok (Process 0 [None] (blocks p) (local p))
  | Some ws =>
    let* ts := convert_all conv ws in
    Ok (Process (Z.of_nat (length ws)) (map Some ts ++ [None]) (blocks p + length ws) (S (local p) - 1))
  end.
(** A program that makes objects of class args in nested scopes and changes argc and argv itself, as parsers of options do.
    The constructor keeps argc and argv (args.hpp:22-24), the destructor puts them back (29-32); the arrays
    of as_charp are not freed by the destructors of the members (36-37). *)
Inductive stmt := Scope (answer : option (list (list Z))) (body : list stmt) | SetArgs (c : Z) (v : list (option str)).
Section Run.
  Variable conv : converter.
  Fixpoint run_stmt (c : stmt) (p : process) : res process :=
    match c with
    | Scope answer body =>
      let* q := fix_args conv answer p in
      let* q := (fix run_all (l : list stmt) (p : process) : res process :=
                   match l with [] => Ok p | x :: l' => let* p' := run_stmt x p in run_all l' p' end) body q in
      Ok (Process (argc p) (argv p) (blocks q) (local q))
    | SetArgs c v => Ok (Process c v (blocks p) (local p))
    end.
End Run.

(** ** The name of the user (win_sys_utils.cpp:137-148) *)
(** GetUserNameExW by its contract: [name] is the name of the user for display in UTF-16 without the final 0, or None if there is none;
    [size] is the value of len before the call, which the code does not set, [left] its value after a failure other than a
    short buffer.  The memory of the buffer is 100 units, None where nothing was written.  The result is the buffer and len. *)
Definition get_user_name_ex (name : option (list Z)) (size left : Z) : res (list (option Z) * Z) :=
  let buffer := repeat None 100 in
  match name with
  | None => Ok (buffer, left)
  | Some w =>
    let n := Z.of_nat (length w) + 1 in
    if n <=? size then
      if n <=? 100 then Ok (map Some w ++ Some 0 :: skipn (S (length w)) buffer, n - 1) else UB
    else Ok (buffer, n)
  end.
(** Reading the buffer: the units up to the first 0. *)
Fixpoint read_units (b : list (option Z)) : res (list Z) :=
  match b with
  | [] => UB
  | None :: _ => UB
  | Some u :: r => if u =? 0 then Ok [0] else let* us := read_units r in Ok (u :: us)
  end.
Definition win_get_username (conv : converter) (name : option (list Z)) (size left : Z) : res str :=
  let* r := get_user_name_ex name size left in
  if snd r =? 0 then Ok [] else let* w := read_units (fst r) in wchar_to_utf8 conv w.

(** ** The language *)
(** PRIMARYLANGID, SUBLANGID and the constants LANG_... of winnt.h; the cases of locale.cpp:52-137 but LANG_ENGLISH *)
Definition primary_langid (lid : Z) : Z := Z.land lid 1023.
Definition sub_langid (lid : Z) : Z := Z.shiftr lid 10.
Definition lang_cases : list (Z * str) :=
  [(0x02, lit "bulgarian"); (0x04, lit "chinese"); (0x7c04, lit "taiwanese"); (0x1a, lit "croatian"); (0x05, lit "czech"); (0x06, lit "danish");
   (0x13, lit "dutch"); (0x0c, lit "french"); (0x07, lit "german"); (0x08, lit "greek"); (0x0e, lit "hungarian"); (0x10, lit "italian");
   (0x11, lit "japanese"); (0x12, lit "korean"); (0x15, lit "polish"); (0x16, lit "portuguese"); (0x18, lit "romanian"); (0x19, lit "russian");
   (0x1b, lit "slovak"); (0x24, lit "slovene"); (0x0a, lit "spanish"); (0x1d, lit "swedish"); (0x22, lit "ukrainian")].
Fixpoint switch (cases : list (Z * str)) (x : Z) (d : str) : str :=
  match cases with [] => d | (k, v) :: r => if x =? k then v else switch r x d end.
Definition langid_language (lid : Z) : str :=
  if primary_langid lid =? 0x09 then (if sub_langid lid =? 0x02 then lit "british" else lit "english")
  else switch lang_cases (primary_langid lid) (lit "english").
(** locale.cpp:46-141 windows_locale_to_language: the static variable [language] keeps the result.  The result and the
    new value of the variable. *)
Definition windows_locale_to_language (language : str) (lid : Z) : str * str :=
  let l := if len language =? 0 then langid_language lid else language in (l, l).
(** Calls one after another, with what GetUserDefaultUILanguage would answer at each. *)
Fixpoint language_calls (language : str) (lids : list Z) : list str :=
  match lids with [] => [] | lid :: r => let (l, language') := windows_locale_to_language language lid in l :: language_calls language' r end.
(** locale.cpp:140-151 get_mac_language: [lang] is the code of the language (kCFLocaleLanguageCode); CFStringGetCString writes nothing that
    can be relied on if the code and the final 0 need more than the 50 bytes of the array. *)
Definition get_mac_language (lang : str) : res str := if len lang <? 50 then Ok (c_chars lang) else UB.
(** locale.cpp:246-248 *)
Definition mac_locale_language (lang : str) : res str := let* s := get_mac_language lang in Ok (locale_to_language s).
