(** The table of LowEntropy::log_partition_function. *)
From Coq Require Import List ZArith.
Import ListNotations.
Local Open Scope Z_scope.

(** log_partition_function_table, src/clustering.cc:189-201, in units of 10^-8: the decimal literals as written.  The
    array holds their nearest floats. *)
Definition le_digits : list Z :=
  [0; 0; 160943791; 368887945; 607993320; 870549682;
   1151947398; 1449108422; 1759827611; 2082445752; 2415668300; 2758456586;
   3109958507; 3469462231; 3836364086; 4210145572; 4590356476; 4976602176;
   5368533918; 5765841234; 6168245958; 6575497413; 6987368527; 7403652635;
   7824160846; 8248719834; 8677169993; 9109363859; 9545164780; 9984445762;
   10427088480; 10872982416; 11322024112; 11774116515; 12229168392; 12687093829;
   13147811772; 13611245629; 14077322911; 14545974907; 15017136399; 15490745399;
   15966742919; 16445072752; 16925681285; 17408517319; 17893531914; 18380678238].
