(** The encodings ISO 8859-2 (Latin 2) and Cork (T1 of TeX), as tables of Unicode code points. *)
From Verif Require Import Base.
Local Open Scope Z_scope.

(** ISO 8859-2: the characters 160 to 255; 128 to 159 are control characters with the same code. *)
Definition latin2_upper : list Z :=
  [160; 260; 728; 321; 164; 317; 346; 167; 168; 352; 350; 356; 377; 173; 381; 379; 176; 261; 731; 322; 180; 318; 347;
   711; 184; 353; 351; 357; 378; 733; 382; 380; 340; 193; 194; 258; 196; 313; 262; 199; 268; 201; 280; 203; 282; 205;
   206; 270; 272; 323; 327; 211; 212; 336; 214; 215; 344; 366; 218; 368; 220; 221; 354; 223; 341; 225; 226; 259; 228;
   314; 263; 231; 269; 233; 281; 235; 283; 237; 238; 271; 273; 324; 328; 243; 244; 337; 246; 247; 345; 367; 250; 369;
   252; 253; 355; 729].
(** Cork: the characters 128 to 255 (223 is SS, here U+1E9E) *)
Definition cork_upper : list Z :=
  [258; 260; 262; 268; 270; 282; 280; 286; 313; 317; 321; 323; 327; 330; 336; 340; 344; 346; 352; 350; 356; 354; 368;
   366; 376; 377; 381; 379; 306; 304; 273; 167; 259; 261; 263; 269; 271; 283; 281; 287; 314; 318; 322; 324; 328; 331;
   337; 341; 345; 347; 353; 351; 357; 355; 369; 367; 255; 378; 382; 380; 307; 161; 191; 163; 192; 193; 194; 195; 196;
   197; 198; 199; 200; 201; 202; 203; 204; 205; 206; 207; 208; 209; 210; 211; 212; 213; 214; 338; 216; 217; 218; 219;
   220; 221; 222; 7838; 224; 225; 226; 227; 228; 229; 230; 231; 232; 233; 234; 235; 236; 237; 238; 239; 240; 241;
   242; 243; 244; 245; 246; 339; 248; 249; 250; 251; 252; 253; 254; 223].
(** Characters below 128 are taken to be ASCII in both encodings. *)
Definition latin2 (c : ascii) : Z := if code c <? 160 then code c else nth (Z.to_nat (code c - 160)) latin2_upper 0.
Definition cork (c : ascii) : Z := if code c <? 128 then code c else nth (Z.to_nat (code c - 128)) cork_upper 0.

(** The character of one encoding is also in the other. *)
Definition in_latin2 (u : Z) : Prop := exists d, latin2 d = u.
Definition in_cork (u : Z) : Prop := exists d, cork d = u.
(** S and T with caron, S with cedilla and Z with acute *)
Definition four (u : Z) : Prop := In u [352; 350; 356; 377].
Definition plain (c : ascii) : Prop := code c < 128 \/ four (latin2 c).
