(** Model of common/3rd_party/base64.c.  Buffers are lists of bytes; [Null]: the function
    returns NULL; [Oob]: it writes outside of the buffer it allocated.  malloc succeeds. *)
From Verif Require Import Lib.

(** base64_table, lines 23-24 *)
Definition table : list Z :=
  [65; 66; 67; 68; 69; 70; 71; 72; 73; 74; 75; 76; 77; 78; 79; 80; 81; 82; 83; 84; 85; 86; 87; 88; 89; 90; 97; 98; 99; 100; 101; 102; 103; 104; 105; 106; 107; 108; 109; 110; 111; 112; 113; 114; 115; 116; 117; 118; 119; 120; 121; 122; 48; 49; 50; 51; 52; 53; 54; 55; 56; 57; 43; 47].
Inductive res := Ok (out : list Z) | Null | Oob.

(** base64_encode, lines 38-92.  The loop and the rest; [line]: line_len *)
Fixpoint enc (l : list Z) (line : Z) : list Z :=
  match l with
  | a :: b :: c :: l =>
      znth 0 table (Z.shiftr a 2) ::
      znth 0 table (Z.lor (Z.shiftl (Z.land a 3) 4) (Z.shiftr b 4)) ::
      znth 0 table (Z.lor (Z.shiftl (Z.land b 15) 2) (Z.shiftr c 6)) ::
      znth 0 table (Z.land c 63) ::
      (if 72 <=? line + 4 then 10 :: enc l 0 else enc l (line + 4))
  | [a; b] =>
      [znth 0 table (Z.shiftr a 2); znth 0 table (Z.lor (Z.shiftl (Z.land a 3) 4) (Z.shiftr b 4));
       znth 0 table (Z.shiftl (Z.land b 15) 2); 61; 10]
  | [a] => [znth 0 table (Z.shiftr a 2); znth 0 table (Z.shiftl (Z.land a 3) 4); 61; 61; 10]
  | [] => if line =? 0 then [] else [10]
  end.
(** [w]: bits of size_t; [len]: the length of [src] *)
Definition encode (w : Z) (src : list Z) : res :=
  let len := zlen src in
  let olen := ((len * 4) mod 2 ^ w / 3 + 4) mod 2 ^ w in
  let olen := (olen + olen / 72) mod 2 ^ w in
  let olen := (olen + 1) mod 2 ^ w in
  if olen <? len then Null
  else let out := enc src 0 in
       if zlen out + 1 <=? olen then Ok out else Oob.

(** base64_decode, lines 105-162.  dtable *)
Fixpoint fill (l : list Z) (i : Z) (d : Z -> Z) : Z -> Z :=
  match l with [] => d | c :: l => fill l (i + 1) (fupd d c i) end.
Definition dtable : Z -> Z := fupd (fill table 0 (fun _ => 128)) 61 0.
Fixpoint valid (src : list Z) : Z :=
  match src with [] => 0 | c :: src => (if dtable c =? 128 then 0 else 1) + valid src end.
(** the second loop; [block] holds [count] entries, [out] the bytes before pos *)
Fixpoint dec (olen : Z) (src block : list Z) (pad : Z) (out : list Z) : res :=
  match src with
  | [] => Ok out
  | c :: src =>
      let tmp := dtable c in
      if tmp =? 128 then dec olen src block pad out
      else
        let pad := if c =? 61 then pad + 1 else pad in
        match block with
        | [b0; b1; b2] =>
            if olen <? zlen out + 3 then Oob
            else
              let x := Z.lor (Z.shiftl b0 2) (Z.shiftr b1 4) mod 256 in
              let y := Z.lor (Z.shiftl b1 4) (Z.shiftr b2 2) mod 256 in
              let z := Z.lor (Z.shiftl b2 6) tmp mod 256 in
              if pad =? 0 then dec olen src [] pad (out ++ [x; y; z])
              else if pad =? 1 then Ok (out ++ [x; y])
              else if pad =? 2 then Ok (out ++ [x])
              else Null
        | _ => dec olen src (block ++ [tmp]) pad out
        end
  end.
Definition decode (src : list Z) : res :=
  let count := valid src in
  if (count =? 0) || negb (count mod 4 =? 0) then Null else dec (count / 4 * 3) src [] 0 [].
