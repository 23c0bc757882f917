(** * Model of crypto/aes: the block cipher used by help/utils/md5.go:46-74

    FIPS 197 on lists of bytes, a block is its 16 bytes in order (column by column).  The Go package
    computes the same function with tables or with processor instructions; it decrypts by the
    equivalent inverse cipher of FIPS 197 5.3.5 instead of the straightforward one given here. *)
From Verif Require Export GoBase AesModel.
Local Open Scope Z_scope.

(** FIPS 197 4.2: multiplication by x in GF(2^8) *)
Definition xtime (b : Z) : Z := Z.lxor (Z.land (Z.shiftl b 1) 255) (if Z.testbit b 7 then 27 else 0).
Definition mul2 (b : Z) : Z := xtime b.
Definition mul3 (b : Z) : Z := Z.lxor (xtime b) b.
Definition mul9 (b : Z) : Z := Z.lxor (xtime (xtime (xtime b))) b.
Definition mul11 (b : Z) : Z := Z.lxor (Z.lxor (xtime (xtime (xtime b))) (xtime b)) b.
Definition mul13 (b : Z) : Z := Z.lxor (Z.lxor (xtime (xtime (xtime b))) (xtime (xtime b))) b.
Definition mul14 (b : Z) : Z := Z.lxor (Z.lxor (xtime (xtime (xtime b))) (xtime (xtime b))) (xtime b).

(** crypto/aes const.go: sbox0 and sbox1 (FIPS 197 figures 7 and 14) *)
Definition sbox0 : list Z :=
  [99; 124; 119; 123; 242; 107; 111; 197; 48; 1; 103; 43; 254; 215; 171; 118;
   202; 130; 201; 125; 250; 89; 71; 240; 173; 212; 162; 175; 156; 164; 114; 192;
   183; 253; 147; 38; 54; 63; 247; 204; 52; 165; 229; 241; 113; 216; 49; 21;
   4; 199; 35; 195; 24; 150; 5; 154; 7; 18; 128; 226; 235; 39; 178; 117;
   9; 131; 44; 26; 27; 110; 90; 160; 82; 59; 214; 179; 41; 227; 47; 132;
   83; 209; 0; 237; 32; 252; 177; 91; 106; 203; 190; 57; 74; 76; 88; 207;
   208; 239; 170; 251; 67; 77; 51; 133; 69; 249; 2; 127; 80; 60; 159; 168;
   81; 163; 64; 143; 146; 157; 56; 245; 188; 182; 218; 33; 16; 255; 243; 210;
   205; 12; 19; 236; 95; 151; 68; 23; 196; 167; 126; 61; 100; 93; 25; 115;
   96; 129; 79; 220; 34; 42; 144; 136; 70; 238; 184; 20; 222; 94; 11; 219;
   224; 50; 58; 10; 73; 6; 36; 92; 194; 211; 172; 98; 145; 149; 228; 121;
   231; 200; 55; 109; 141; 213; 78; 169; 108; 86; 244; 234; 101; 122; 174; 8;
   186; 120; 37; 46; 28; 166; 180; 198; 232; 221; 116; 31; 75; 189; 139; 138;
   112; 62; 181; 102; 72; 3; 246; 14; 97; 53; 87; 185; 134; 193; 29; 158;
   225; 248; 152; 17; 105; 217; 142; 148; 155; 30; 135; 233; 206; 85; 40; 223;
   140; 161; 137; 13; 191; 230; 66; 104; 65; 153; 45; 15; 176; 84; 187; 22].
Definition sbox1 : list Z :=
  [82; 9; 106; 213; 48; 54; 165; 56; 191; 64; 163; 158; 129; 243; 215; 251;
   124; 227; 57; 130; 155; 47; 255; 135; 52; 142; 67; 68; 196; 222; 233; 203;
   84; 123; 148; 50; 166; 194; 35; 61; 238; 76; 149; 11; 66; 250; 195; 78;
   8; 46; 161; 102; 40; 217; 36; 178; 118; 91; 162; 73; 109; 139; 209; 37;
   114; 248; 246; 100; 134; 104; 152; 22; 212; 164; 92; 204; 93; 101; 182; 146;
   108; 112; 72; 80; 253; 237; 185; 218; 94; 21; 70; 87; 167; 141; 157; 132;
   144; 216; 171; 0; 140; 188; 211; 10; 247; 228; 88; 5; 184; 179; 69; 6;
   208; 44; 30; 143; 202; 63; 15; 2; 193; 175; 189; 3; 1; 19; 138; 107;
   58; 145; 17; 65; 79; 103; 220; 234; 151; 242; 207; 206; 240; 180; 230; 115;
   150; 172; 116; 34; 231; 173; 53; 133; 226; 249; 55; 232; 28; 117; 223; 110;
   71; 241; 26; 113; 29; 41; 197; 137; 111; 183; 98; 14; 170; 24; 190; 27;
   252; 86; 62; 75; 198; 210; 121; 32; 154; 219; 192; 254; 120; 205; 90; 244;
   31; 221; 168; 51; 136; 7; 199; 49; 177; 18; 16; 89; 39; 128; 236; 95;
   96; 81; 127; 169; 25; 181; 74; 13; 45; 229; 122; 159; 147; 201; 156; 239;
   160; 224; 59; 77; 174; 42; 245; 176; 200; 235; 187; 60; 131; 83; 153; 97;
   23; 43; 4; 126; 186; 119; 214; 38; 225; 105; 20; 99; 85; 33; 12; 125].
Definition sub_byte (b : Z) : Z := default 0 (sbox0 !! Z.to_nat b).
Definition inv_sub_byte (b : Z) : Z := default 0 (sbox1 !! Z.to_nat b).
Definition sub_bytes (s : list Z) : list Z := sub_byte <$> s.
Definition inv_sub_bytes (s : list Z) : list Z := inv_sub_byte <$> s.
(** FIPS 197 5.1.2, 5.3.1: row [r] turns by [r] columns *)
Definition pick (is : list nat) (s : list Z) : list Z := (λ i, default 0 (s !! i)) <$> is.
Definition shift_rows : list Z → list Z := pick [0; 5; 10; 15; 4; 9; 14; 3; 8; 13; 2; 7; 12; 1; 6; 11]%nat.
Definition inv_shift_rows : list Z → list Z := pick [0; 13; 10; 7; 4; 1; 14; 11; 8; 5; 2; 15; 12; 9; 6; 3]%nat.
(** FIPS 197 5.1.3, 5.3.3: one column at a time *)
Definition lxor4 (a b c d : Z) : Z := Z.lxor (Z.lxor a b) (Z.lxor c d).
Fixpoint mix_columns (s : list Z) : list Z :=
  match s with
  | a :: b :: c :: d :: r =>
    lxor4 (mul2 a) (mul3 b) c d :: lxor4 a (mul2 b) (mul3 c) d :: lxor4 a b (mul2 c) (mul3 d) :: lxor4 (mul3 a) b c (mul2 d) :: mix_columns r
  | _ => s
  end.
Fixpoint inv_mix_columns (s : list Z) : list Z :=
  match s with
  | a :: b :: c :: d :: r =>
    lxor4 (mul14 a) (mul11 b) (mul13 c) (mul9 d) :: lxor4 (mul9 a) (mul14 b) (mul11 c) (mul13 d) ::
    lxor4 (mul13 a) (mul9 b) (mul14 c) (mul11 d) :: lxor4 (mul11 a) (mul13 b) (mul9 c) (mul14 d) :: inv_mix_columns r
  | _ => s
  end.

(** crypto/aes block.go expandKeyGo; a word is its four bytes *)
Fixpoint words (l : list Z) : list (list Z) :=
  match l with a :: b :: c :: d :: r => [a; b; c; d] :: words r | _ => [] end.
Definition rotw (w : list Z) : list Z := drop 1 w ++ take 1 w.
Definition powx : list Z := [1; 2; 4; 8; 16; 32; 64; 128; 27; 54; 108; 216; 171; 77; 154; 47].
Definition rcon (j : nat) : list Z := [default 0 (powx !! j); 0; 0; 0].
Definition next_word (nk : nat) (w : list (list Z)) : list Z :=
  let i := length w in
  let t := default [] (w !! (i - 1)%nat) in
  let t' := if (i mod nk =? 0)%nat then xor (sub_bytes (rotw t)) (rcon (i / nk - 1))
            else if ((6 <? nk) && (i mod nk =? 4))%nat then sub_bytes t else t in
  xor (default [] (w !! (i - nk)%nat)) t'.
Fixpoint grow (n nk : nat) (w : list (list Z)) : list (list Z) :=
  match n with O => w | S n => grow n nk (w ++ [next_word nk w]) end.
Definition rounds (key : list Z) : nat := (length key / 4 + 6)%nat.
Definition expand_key (key : list Z) : list (list Z) :=
  let nk := (length key / 4)%nat in grow (4 * (rounds key + 1) - nk) nk (words key).
Definition round_key (w : list (list Z)) (r : nat) : list Z := concat (take 4 (drop (4 * r) w)).

(** FIPS 197 5.1 *)
Definition enc_round (w : list (list Z)) (s : list Z) (r : nat) : list Z := xor (mix_columns (shift_rows (sub_bytes s))) (round_key w r).
Definition encrypt_block (key b : list Z) : list Z :=
  let w := expand_key key in let nr := rounds key in
  let s := foldl (enc_round w) (xor b (round_key w 0)) (seq 1 (nr - 1)) in
  xor (shift_rows (sub_bytes s)) (round_key w nr).
(** FIPS 197 5.3 *)
Definition dec_round (w : list (list Z)) (s : list Z) (r : nat) : list Z := inv_mix_columns (xor (inv_sub_bytes (inv_shift_rows s)) (round_key w r)).
Definition decrypt_block (key b : list Z) : list Z :=
  let w := expand_key key in let nr := rounds key in
  let s := foldl (dec_round w) (xor b (round_key w nr)) (reverse (seq 1 (nr - 1))) in
  xor (inv_sub_bytes (inv_shift_rows s)) (round_key w 0).

(** md5.go:46-57 and 59-74 with this cipher *)
Definition AesEncrypt := aes_encrypt encrypt_block.
Definition AesDecrypt := aes_decrypt decrypt_block.
