(** Model of common/crypto.c: the MD5 digest that the symbol cache identifies
    modules by, and the CRC that Dr. Heapstat identifies call stacks by.

    Simplifications.  A byte array is a list of numbers from 0 to 255, and the
    length passed with it is its length.  The byte order is little-endian, so
    that the memcpy at common/crypto.c:218 reads words as the branch below it
    does.  md5_final's clearing of the context is left out. *)
From Verif Require Import Base.
Local Open Scope Z_scope.

Definition u32 (z : Z) : Z := z mod 2 ^ 32.
Definition u64 (z : Z) : Z := z mod 2 ^ 64.

(** ** MD5 *)

(* common/crypto.c:200-203: F1 to F4 on 32-bit words. *)
Inductive fn := F1 | F2 | F3 | F4.
Definition f1 (x y z : Z) : Z := Z.lxor z (Z.land x (Z.lxor y z)).
Definition app (f : fn) (x y z : Z) : Z :=
  match f with
  | F1 => f1 x y z
  | F2 => f1 z x y
  | F3 => Z.lxor (Z.lxor x y) z
  | F4 => Z.lxor y (Z.lor x (u32 (Z.lnot z)))
  end.

(* The four local variables of md5_transform. *)
Inductive reg := A | B | C | D.
Record regs := Regs { ra : Z; rb : Z; rc : Z; rd : Z }.
Definition get (r : reg) (s : regs) : Z :=
  match r with A => ra s | B => rb s | C => rc s | D => rd s end.
Definition set (r : reg) (v : Z) (s : regs) : regs :=
  match r with
  | A => Regs v (rb s) (rc s) (rd s)
  | B => Regs (ra s) v (rc s) (rd s)
  | C => Regs (ra s) (rb s) v (rd s)
  | D => Regs (ra s) (rb s) (rc s) v
  end.

(* One MD5STEP line: the function, the four variables, the word of the block,
   the constant and the rotation. *)
Inductive op := Op (f : fn) (w x y z : reg) (k : nat) (c s : Z).

(* common/crypto.c:206-207 MD5STEP. *)
Definition step (block : list Z) (o : op) (st : regs) : regs :=
  let 'Op f w x y z k c s := o in
  let data := u32 (nth k block 0 + c) in
  let v := u32 (get w st + u32 (app f (get x st) (get y st) (get z st) + data)) in
  let v := Z.lor (u32 (Z.shiftl v s)) (Z.shiftr v (32 - s)) in
  set w (u32 (v + get x st)) st.

(* common/crypto.c:234-304: the 64 steps. *)
Definition program : list op :=
  [Op F1 A B C D 0 3614090360 7;
   Op F1 D A B C 1 3905402710 12;
   Op F1 C D A B 2 606105819 17;
   Op F1 B C D A 3 3250441966 22;
   Op F1 A B C D 4 4118548399 7;
   Op F1 D A B C 5 1200080426 12;
   Op F1 C D A B 6 2821735955 17;
   Op F1 B C D A 7 4249261313 22;
   Op F1 A B C D 8 1770035416 7;
   Op F1 D A B C 9 2336552879 12;
   Op F1 C D A B 10 4294925233 17;
   Op F1 B C D A 11 2304563134 22;
   Op F1 A B C D 12 1804603682 7;
   Op F1 D A B C 13 4254626195 12;
   Op F1 C D A B 14 2792965006 17;
   Op F1 B C D A 15 1236535329 22;
   Op F2 A B C D 1 4129170786 5;
   Op F2 D A B C 6 3225465664 9;
   Op F2 C D A B 11 643717713 14;
   Op F2 B C D A 0 3921069994 20;
   Op F2 A B C D 5 3593408605 5;
   Op F2 D A B C 10 38016083 9;
   Op F2 C D A B 15 3634488961 14;
   Op F2 B C D A 4 3889429448 20;
   Op F2 A B C D 9 568446438 5;
   Op F2 D A B C 14 3275163606 9;
   Op F2 C D A B 3 4107603335 14;
   Op F2 B C D A 8 1163531501 20;
   Op F2 A B C D 13 2850285829 5;
   Op F2 D A B C 2 4243563512 9;
   Op F2 C D A B 7 1735328473 14;
   Op F2 B C D A 12 2368359562 20;
   Op F3 A B C D 5 4294588738 4;
   Op F3 D A B C 8 2272392833 11;
   Op F3 C D A B 11 1839030562 16;
   Op F3 B C D A 14 4259657740 23;
   Op F3 A B C D 1 2763975236 4;
   Op F3 D A B C 4 1272893353 11;
   Op F3 C D A B 7 4139469664 16;
   Op F3 B C D A 10 3200236656 23;
   Op F3 A B C D 13 681279174 4;
   Op F3 D A B C 0 3936430074 11;
   Op F3 C D A B 3 3572445317 16;
   Op F3 B C D A 6 76029189 23;
   Op F3 A B C D 9 3654602809 4;
   Op F3 D A B C 12 3873151461 11;
   Op F3 C D A B 15 530742520 16;
   Op F3 B C D A 2 3299628645 23;
   Op F4 A B C D 0 4096336452 6;
   Op F4 D A B C 7 1126891415 10;
   Op F4 C D A B 14 2878612391 15;
   Op F4 B C D A 5 4237533241 21;
   Op F4 A B C D 12 1700485571 6;
   Op F4 D A B C 3 2399980690 10;
   Op F4 C D A B 10 4293915773 15;
   Op F4 B C D A 1 2240044497 21;
   Op F4 A B C D 8 1873313359 6;
   Op F4 D A B C 15 4264355552 10;
   Op F4 C D A B 6 2734768916 15;
   Op F4 B C D A 13 1309151649 21;
   Op F4 A B C D 4 4149444226 6;
   Op F4 D A B C 11 3174756917 10;
   Op F4 C D A B 2 718787259 15;
   Op F4 B C D A 9 3951481745 21].

(* common/crypto.c:217-219: the block as 16 words. *)
Fixpoint words (n : nat) (l : list Z) : list Z :=
  match n with
  | O => []
  | S n' => (nth 0 l 0 + 256 * nth 1 l 0 + 65536 * nth 2 l 0 + 16777216 * nth 3 l 0)
            :: words n' (skipn 4 l)
  end.

(* common/crypto.c:214-310 md5_transform. *)
Definition transform (st : regs) (block : list Z) : regs :=
  let r := fold_left (fun s o => step (words 16 block) o s) program st in
  Regs (u32 (ra st + ra r)) (u32 (rb st + rb r)) (u32 (rc st + rc r)) (u32 (rd st + rd r)).

(* common/crypto.h:74-78 md5_context_t. *)
Record context := Context { count : Z; state : regs; buffer : list Z }.

(* common/crypto.c:110-119 md5_init; the buffer stays as it is found. *)
Definition init (buf : list Z) : context :=
  Context 0 (Regs 1732584193 4023233417 2562383102 271733878) buf.

(* memcpy(ctx->buffer + at, data, length), which must fit. *)
Definition splice (buf : list Z) (at_ : Z) (data : list Z) : res (list Z) :=
  if at_ + Z.of_nat (length data) <=? Z.of_nat (length buf) then
    Ok (firstn (Z.to_nat at_) buf ++ data ++ skipn (Z.to_nat at_ + length data) buf)
  else UB.

(* common/crypto.c:148-152: the loop over whole blocks. *)
Fixpoint blocks (fuel : nat) (st : regs) (input : list Z) : res (regs * list Z) :=
  if 64 <=? Z.of_nat (length input) then
    match fuel with
    | O => Fuel
    | S n => blocks n (transform st (firstn 64 input)) (skipn 64 input)
    end
  else Ok (st, input).

(* common/crypto.c:125-158 md5_update. *)
Definition update (c : context) (input : list Z) : res context :=
  let len := Z.of_nat (length input) in
  let have := Z.land (Z.shiftr (count c) 3) 63 in
  let need := 64 - have in
  let cnt := u64 (count c + u64 (Z.shiftl len 3)) in
  let* r :=
    if need <=? len then
      let* r :=
        if negb (have =? 0) then
          let* b := splice (buffer c) have (firstn (Z.to_nat need) input) in
          Ok (transform (state c) b, b, skipn (Z.to_nat need) input, 0)
        else Ok (state c, buffer c, input, have) in
      let '(st, b, input, have) := r in
      let* q := blocks (length input) st input in
      Ok (fst q, b, snd q, have)
    else Ok (state c, buffer c, input, have) in
  let '(st, b, input, have) := r in
  let* b := if negb (Z.of_nat (length input) =? 0) then splice b have input else Ok b in
  Ok (Context cnt st b).

(* common/crypto.c:85-99 PUT_64BIT_LE and PUT_32BIT_LE. *)
Definition put_le (n : nat) (v : Z) : list Z :=
  map (fun i => Z.shiftr v (8 * Z.of_nat i) mod 256) (seq 0 n).

(* common/crypto.c:101-105 PADDING. *)
Definition PADDING : list Z := 128 :: repeat 0 63.

(* common/crypto.c:163-180 md5_pad.  The update reads padlen - 8 bytes of the
   64 there are. *)
Definition pad (c : context) : res context :=
  let cnt := put_le 8 (count c) in
  let padlen := 64 - Z.land (Z.shiftr (count c) 3) 63 in
  let padlen := if padlen <? 9 then padlen + 64 else padlen in
  if padlen - 8 <=? 64 then
    let* c := update c (firstn (Z.to_nat (padlen - 8)) PADDING) in
    update c cnt
  else UB.

(* common/crypto.c:184-195 md5_final. *)
Definition final (c : context) : res (list Z) :=
  let* c := pad c in
  let s := state c in
  Ok (put_le 4 (ra s) ++ put_le 4 (rb s) ++ put_le 4 (rc s) ++ put_le 4 (rd s)).

(* md5_update once per piece. *)
Fixpoint updates (c : context) (l : list (list Z)) : res context :=
  match l with
  | [] => Ok c
  | x :: l' => let* c := update c x in updates c l'
  end.

(* common/crypto.c:323-336 get_md5_for_region; [junk] is what the stack holds
   where the context is. *)
Definition get_md5_for_region (junk : list Z) (region : list Z) : res (list Z) :=
  let c := init junk in
  let* c := if negb (Z.of_nat (length region) =? 0) then update c region else Ok c in
  final c.

(** ** CRC *)

(* common/crypto.c:359-424 crctab. *)
Definition crctab : list Z :=
  [0; 1996959894; 3993919788; 2567524794; 124634137; 1886057615; 3915621685; 2657392035;
   249268274; 2044508324; 3772115230; 2547177864; 162941995; 2125561021; 3887607047; 2428444049;
   498536548; 1789927666; 4089016648; 2227061214; 450548861; 1843258603; 4107580753; 2211677639;
   325883990; 1684777152; 4251122042; 2321926636; 335633487; 1661365465; 4195302755; 2366115317;
   997073096; 1281953886; 3579855332; 2724688242; 1006888145; 1258607687; 3524101629; 2768942443;
   901097722; 1119000684; 3686517206; 2898065728; 853044451; 1172266101; 3705015759; 2882616665;
   651767980; 1373503546; 3369554304; 3218104598; 565507253; 1454621731; 3485111705; 3099436303;
   671266974; 1594198024; 3322730930; 2970347812; 795835527; 1483230225; 3244367275; 3060149565;
   1994146192; 31158534; 2563907772; 4023717930; 1907459465; 112637215; 2680153253; 3904427059;
   2013776290; 251722036; 2517215374; 3775830040; 2137656763; 141376813; 2439277719; 3865271297;
   1802195444; 476864866; 2238001368; 4066508878; 1812370925; 453092731; 2181625025; 4111451223;
   1706088902; 314042704; 2344532202; 4240017532; 1658658271; 366619977; 2362670323; 4224994405;
   1303535960; 984961486; 2747007092; 3569037538; 1256170817; 1037604311; 2765210733; 3554079995;
   1131014506; 879679996; 2909243462; 3663771856; 1141124467; 855842277; 2852801631; 3708648649;
   1342533948; 654459306; 3188396048; 3373015174; 1466479909; 544179635; 3110523913; 3462522015;
   1591671054; 702138776; 2966460450; 3352799412; 1504918807; 783551873; 3082640443; 3233442989;
   3988292384; 2596254646; 62317068; 1957810842; 3939845945; 2647816111; 81470997; 1943803523;
   3814918930; 2489596804; 225274430; 2053790376; 3826175755; 2466906013; 167816743; 2097651377;
   4027552580; 2265490386; 503444072; 1762050814; 4150417245; 2154129355; 426522225; 1852507879;
   4275313526; 2312317920; 282753626; 1742555852; 4189708143; 2394877945; 397917763; 1622183637;
   3604390888; 2714866558; 953729732; 1340076626; 3518719985; 2797360999; 1068828381; 1219638859;
   3624741850; 2936675148; 906185462; 1090812512; 3747672003; 2825379669; 829329135; 1181335161;
   3412177804; 3160834842; 628085408; 1382605366; 3423369109; 3138078467; 570562233; 1426400815;
   3317316542; 2998733608; 733239954; 1555261956; 3268935591; 3050360625; 752459403; 1541320221;
   2607071920; 3965973030; 1969922972; 40735498; 2617837225; 3943577151; 1913087877; 83908371;
   2512341634; 3803740692; 2075208622; 213261112; 2463272603; 3855990285; 2094854071; 198958881;
   2262029012; 4057260610; 1759359992; 534414190; 2176718541; 4139329115; 1873836001; 414664567;
   2282248934; 4279200368; 1711684554; 285281116; 2405801727; 4167216745; 1634467795; 376229701;
   2685067896; 3608007406; 1308918612; 956543938; 2808555105; 3495958263; 1231636301; 1047427035;
   2932959818; 3654703836; 1088359270; 936918000; 2847714899; 3736837829; 1202900863; 817233897;
   3183342108; 3401237130; 1404277552; 615818150; 3134207493; 3453421203; 1423857449; 601450431;
   3009837614; 3294710456; 1567103746; 711928724; 3020668471; 3272380065; 1510334235; 755167117].

(* common/crypto.c:433-434 and 448-449.  A char may be negative. *)
Definition crc_step (crc b : Z) : Z :=
  Z.lxor (Z.shiftr crc 8) (nth (Z.to_nat (Z.land (Z.lxor crc b) 255)) crctab 0).

(* common/crypto.c:426-437 crc32. *)
Definition crc32 (buf : list Z) : Z := fold_left crc_step buf (2 ^ 32 - 1).

(* common/crypto.c:439-454 crc32_whole_and_half: crc_out as found and as left. *)
Fixpoint wh_loop (buf : list Z) (i half crc : Z) (out1 : Z) : Z * Z :=
  match buf with
  | [] => (crc, out1)
  | b :: l =>
      let crc := crc_step crc b in
      wh_loop l (i + 1) half crc (if i =? half then crc else out1)
  end.
Definition whole_and_half (buf : list Z) (out : Z * Z) : Z * Z :=
  wh_loop buf 0 (Z.of_nat (length buf) / 2) (2 ^ 32 - 1) (snd out).

(* common/crypto.c:456-460 crc32_whole_and_half_equal. *)
Definition wh_equal (x y : Z * Z) : bool := (fst x =? fst y) && (snd x =? snd y).
