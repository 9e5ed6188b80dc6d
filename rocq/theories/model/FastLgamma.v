(** fast_lgamma, fast_lgamma_nu and fast_log_factorial of include/distributions/special.hpp on IEEE numbers
    (Flocq's binary32 and binary64), every operation rounded to nearest even.  The compiler is taken to
    follow the written order and not to fuse multiplications and additions; payloads of NaN are not kept. *)
From Coq Require Import Bool.
From Flocq Require Import Core BinarySingleNaN Binary Bits.
From Verif.model Require Import Base FastExp FloatNum Special.
Local Open Scope Z_scope.

(** lgamma_approx_coeff5, src/special.cc:144-211, as the bits of the floats the literals round to; six per row. *)
Definition lgamma_coeff_bits : list Z := [
  3171338778; 1050636325; 3215065318; 1078225618; 3229607323; 1073041435;
  3131517994; 1019797502; 3193045174; 1065884053; 3221441195; 1066517932;
  3094859910; 991361035; 3173100384; 1054653105; 3209681277; 1041090132;
  3058845849; 964771857; 3154937112; 1044773416; 1040427458; 3216132963;
  3024167974; 938383954; 3137522115; 1035693311; 1064319214; 3229706676;
  2990079358; 912596969; 3120318338; 1026972850; 1071124909; 3239016707;
  2956264781; 887128342; 3103243663; 1018421815; 1075457278; 3247675638;
  2922582018; 861813066; 3086319517; 1009952870; 1078422393; 3256106383;
  2888963855; 836573003; 3069469286; 1001524313; 1081358467; 3264470090;
  2855377667; 811370182; 3052655675; 993115785; 1083205271; 3272823398;
  2821807384; 786185889; 3035860290; 984717231; 1084662495; 3281182966;
  2788245033; 761010839; 3019073996; 976323653; 1086117924; 3289551367;
  2754686644; 735840404; 3002292243; 967932561; 1087572455; 3297927030;
  2721130233; 710672274; 2985512759; 959542712; 1089026539; 3306307746;
  2687574812; 685505298; 2968734409; 951153483; 1090480398; 3314691698;
  2654019886; 660338898; 2951956626; 942764564; 1091226592; 3323077623;
  2620465206; 635172786; 2935179126; 934375801; 1091953438; 3331464712;
  2586910651; 610006818; 2918401769; 925987116; 1092680269; 3339852471;
  2553356157; 584840922; 2901624482; 917598469; 1093407094; 3348240611;
  2519801694; 559675062; 2884847230; 909209841; 1094133915; 3356628963;
  2486247247; 534509220; 2868069997; 900821224; 1094860734; 3365017431;
  2452692807; 509343387; 2851292772; 892432611; 1095587553; 3373405964;
  2419138371; 484177558; 2834515551; 884044000; 1096314370; 3381794532;
  2385583937; 459011732; 2817738333; 875655391; 1097041188; 3390183118;
  2352029504; 433845907; 2800961116; 867266783; 1097768006; 3398571715;
  2318475072; 408680082; 2784183900; 858878174; 1098494823; 3406960317;
  2284920639; 383514258; 2767406683; 850489566; 1099064644; 3415348921;
  2251366207; 358348434; 2750629467; 842100958; 1099428053; 3423737528;
  2217811775; 333182610; 2733852251; 833712350; 1099791462; 3432126135;
  2184257343; 308016786; 2717075035; 825323742; 1100154871; 3440514742;
  2153287584; 282850962; 2700297819; 816935134; 1100518279; 3448903350;
  2147846394; 257685138; 2683520603; 808546526; 1100881688; 3457291958;
  2147506320; 232519314; 2666743387; 800157918; 1101245097; 3465680566].

(** lgamma_nu_func_approx_coeff3, src/special.cc:232-269, likewise; four per row. *)
Definition lgamma_nu_coeff_bits : list Z := [
  1122397778; 3265027549; 1101923420; 3229618441;
  1071531548; 3230958425; 1084146101; 3223829295;
  1018403730; 3194817589; 1065028585; 3215607993;
  965208376; 3157667466; 1044987593; 3198759951;
  913396752; 3122892056; 1027150909; 1055431259;
  862548523; 3089022924; 1010101887; 1066785685;
  812087443; 3055389657; 993256603; 1072649174;
  761723432; 3021815514; 976462368; 1076108888;
  711383693; 2988256154; 959680897; 1079017688;
  661050022; 2954700490; 942902617; 1081925341;
  610717869; 2921145750; 926125135; 1083481569;
  560386094; 2887591241; 909347853; 1084935216;
  510054415; 2854036790; 892570620; 1086388854;
  459722758; 2820482352; 875793400; 1087842490;
  409391117; 2786927923; 859016185; 1089296125;
  359059469; 2753373491; 842238968; 1090634400;
  308727822; 2719819060; 825461753; 1091361217;
  258396185; 2686264634; 808684543; 1092088035].

(** Hypotheses of Flocq's operations for double precision (double, special.hpp:154). *)
Definition prec64 : 0 < 53 := eq_refl.
(** double, special.hpp:154 *)
Definition emax64 : 53 < 1024 := eq_refl.

(** Conversion from float to double (special.hpp:154-170); exact.  With [daz] the processor reads subnormal
    operands as zeros: the mode that the start-up code of a program linked with -ffast-math
    (CMakeLists.txt:23, setup.py:87) selects on x86. *)
Definition widen (daz : bool) (x : binary32) : binary64 :=
  match x with
  | B754_zero _ _ s => B754_zero 53 1024 s
  | B754_infinity _ _ s => B754_infinity 53 1024 s
  | B754_nan _ _ _ _ _ => b64_of_bits 9221120237041090560
  | B754_finite _ _ s m e _ =>
      if daz && (Zpos m <? 8388608) then B754_zero 53 1024 s
      else binary_normalize 53 1024 prec64 emax64 mode_NE (cond_Zopp s (Zpos m)) e s
  end.
(** Conversion from double to float (special.hpp:170). *)
Definition narrow (x : binary64) : binary32 :=
  match x with
  | B754_zero _ _ s => B754_zero 24 128 s
  | B754_infinity _ _ s => B754_infinity 24 128 s
  | B754_nan _ _ _ _ _ => b32_of_bits 2143289344
  | B754_finite _ _ s m e _ => binary_normalize 24 128 prec32 emax32 mode_NE (cond_Zopp s (Zpos m)) e s
  end.

(** Array read of a float of the tables (special.hpp:147-152, 229-232). *)
Definition coeff (t : list Z) (i : Z) : outcome binary32 := let* b := zget t i in Ok (b32_of_bits b).

(** special.hpp:154-170 *)
Definition lgamma_poly (daz : bool) (a5 a4 a3 a2 a1 a0 y : binary32) : binary32 :=
  let d := widen daz in
  let mul := b64_mult mode_NE in
  let add := b64_plus mode_NE in
  let yprod := d y in
  let sum := d a0 in
  let sum := add sum (mul (d a1) yprod) in
  let yprod := mul yprod (d y) in
  let sum := add sum (mul (d a2) yprod) in
  let yprod := mul yprod (d y) in
  let sum := add sum (mul (d a3) yprod) in
  let yprod := mul yprod (d y) in
  let sum := add sum (mul (d a4) yprod) in
  let yprod := mul yprod (d y) in
  let sum := add sum (mul (d a5) yprod) in
  narrow sum.

(** 2.5f, 4294967295.0f (rounds to 2^32) and 0.0625f (special.hpp:121, 246) *)
Definition b_2_5 : binary32 := b32_of_bits 1075838976.
(** special.hpp:121, 246 *)
Definition b_2_32 : binary32 := b32_of_bits 1333788672.
(** special.hpp:246 *)
Definition b_1_16 : binary32 := b32_of_bits 1031798784.

(** fast_lgamma, special.hpp:114-171; [libm] is lgammaf *)
Definition fast_lgamma32 (daz : bool) (libm : binary32 -> binary32) (y : binary32) : outcome binary32 :=
  if b32_ltb y b_2_5 || b32_leb b_2_32 y then Ok (libm y)
  else
    let* c := int_log2 (bits_of_b32 y) in
    let pos := c * 6 in
    let* a5 := coeff lgamma_coeff_bits pos in
    let* a4 := coeff lgamma_coeff_bits (pos + 1) in
    let* a3 := coeff lgamma_coeff_bits (pos + 2) in
    let* a2 := coeff lgamma_coeff_bits (pos + 3) in
    let* a1 := coeff lgamma_coeff_bits (pos + 4) in
    let* a0 := coeff lgamma_coeff_bits (pos + 5) in
    Ok (lgamma_poly daz a5 a4 a3 a2 a1 a0 y).

(** poly_eval_3, special.hpp:224-235: a0 + x*a1 + x*x*a2 + x*x*x*a3, from left to right *)
Definition poly_eval_3 (a3 a2 a1 a0 x : binary32) : binary32 :=
  let mul := b32_mult mode_NE in
  let add := b32_plus mode_NE in
  add (add (add a0 (mul x a1)) (mul (mul x x) a2)) (mul (mul (mul x x) x) a3).

(** 0.5f, special.hpp:247 *)
Definition b_half : binary32 := b32_of_bits 1056964608.

(** fast_lgamma_nu, special.hpp:239-273 *)
Definition fast_lgamma_nu32 (libm : binary32 -> binary32) (nu : binary32) : outcome binary32 :=
  if b32_ltb nu b_1_16 || b32_leb b_2_32 nu then
    let h := b32_mult mode_NE nu b_half in
    Ok (b32_minus mode_NE (libm (b32_plus mode_NE h b_half)) (libm h))
  else
    let* c := int_log2 (bits_of_b32 nu) in
    let pos := Z.quot (c + 4) 2 * 4 in
    let* a0 := coeff lgamma_nu_coeff_bits (pos + 3) in
    let* a1 := coeff lgamma_nu_coeff_bits (pos + 2) in
    let* a2 := coeff lgamma_nu_coeff_bits (pos + 1) in
    let* a3 := coeff lgamma_nu_coeff_bits pos in
    Ok (poly_eval_3 a3 a2 a1 a0 nu).

(** fast_log_factorial, special.hpp:208-214, from 64 on: n + 1 is an unsigned int, converted to float. *)
Definition fast_log_factorial_large (daz : bool) (libm : binary32 -> binary32) (n : Z) : outcome binary32 :=
  fast_lgamma32 daz libm (float_of_int (u32 (n + 1))).
