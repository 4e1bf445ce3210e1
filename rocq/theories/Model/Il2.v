(** Iso latin 2 and Cork: /repo/Kernel/Types/analyze.cpp:317-371.
    The bytes of the literals are those that a compiler makes of the source text: escapes are octal, strings are
    concatenated, and characters such as U+00A8 are the bytes of their UTF-8 form, in which the source is written. *)
From Verif Require Import Base.
Local Open Scope Z_scope.

(** analyze.cpp:321-329: 135 bytes *)
Definition il2_to_cork_string : list Z :=
  [128; 129; 130; 131; 132; 133; 134; 135; 136; 137; 138; 139; 140; 141; 142; 143; 144; 145; 146; 147; 148; 149; 150;
   151; 152; 153; 154; 155; 156; 157; 158; 159; 32; 16; 138; 32; 137; 145; 159; 194; 168; 146; 147; 148; 153; 226;
   128; 144; 154; 155; 32; 161; 203; 155; 170; 194; 180; 169; 177; 203; 135; 194; 184; 178; 179; 180; 185; 203; 157;
   186; 187; 143; 193; 194; 128; 196; 136; 130; 199; 131; 201; 134; 203; 133; 205; 206; 132; 208; 139; 140; 211; 212;
   142; 214; 46; 144; 151; 218; 150; 220; 221; 149; 255; 175; 225; 226; 160; 228; 168; 162; 231; 163; 233; 166; 235;
   165; 237; 238; 164; 158; 171; 172; 243; 244; 174; 246; 47; 176; 183; 250; 182; 252; 253; 181; 32].
(** analyze.cpp:330-338: 128 bytes *)
Definition cork_to_il2_string : list Z :=
  [195; 161; 198; 200; 207; 204; 202; 71; 197; 165; 163; 209; 210; 32; 213; 192; 216; 166; 169; 170; 171; 222; 219;
   217; 89; 172; 174; 175; 73; 73; 240; 167; 227; 177; 230; 232; 239; 236; 234; 103; 229; 181; 179; 241; 242; 32;
   245; 224; 248; 182; 185; 186; 187; 254; 251; 249; 121; 188; 190; 191; 105; 33; 63; 76; 65; 193; 194; 65; 196; 65;
   65; 199; 69; 201; 69; 203; 73; 205; 206; 73; 208; 78; 79; 211; 212; 79; 214; 79; 79; 85; 218; 85; 220; 221; 32;
   83; 97; 225; 226; 97; 228; 97; 97; 231; 101; 233; 101; 235; 105; 237; 238; 105; 240; 110; 111; 243; 244; 111; 246;
   111; 111; 117; 250; 117; 252; 253; 32; 223].
(** analyze.cpp:340-345 and 347-352: s[i] is not checked *)
Definition translate_char (table : list Z) (c : ascii) : res ascii :=
  let i := code c in
  if i <? 128 then Ok c else let* d := get table (Z.to_nat (i - 128)) in Ok (chr d).
(** analyze.cpp:354-361 and 363-370: the loop fills a string of the same length *)
Fixpoint translate (table : list Z) (s : str) : res str :=
  match s with
  | [] => Ok []
  | c :: r => let* d := translate_char table c in let* t := translate table r in Ok (d :: t)
  end.
Definition il2_to_cork : str -> res str := translate il2_to_cork_string.
Definition cork_to_il2 : str -> res str := translate cork_to_il2_string.
