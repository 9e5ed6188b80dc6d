(** src/io/schema.pb.cc, message by message: the literals of the generated functions, in the shapes of
    SchemaCode.v.  Members are numbered in the order of declaration.  Clustering, the one
    message with sub-messages (1223-1483), is in SchemaClustering.v.  Not modelled: descriptors and reflection
    (1-767), Swap, GetMetadata, destructors, New. *)
From Coq Require Import String.
From Verif.model Require Import Base Wire SchemaCode.
Local Open Scope Z_scope.

(** Clustering::PitmanYor: Clear 827-834, MergePartialFromCodedStream 836-887, SerializeWithCachedSizes 889-905, ...ToArray 907-924,
    ByteSize 926-950, MergeFrom 964-975, IsInitialized 989-993 of schema.pb.cc; has-bits schema.pb.h:2560-2600. *)
Definition Clustering_PitmanYor_code : code := {|
  c_has := [Some 1; Some 2];
  c_clear_rep := []%nat;
  c_parse := [PCase 1 5 KFloat 0%nat None [(21, 1%nat)] false;
              PCase 2 5 KFloat 1%nat None [] true];
  c_write := [SOne 0 1 KFloat; SOne 1 2 KFloat];
  c_write_array := [SOne 0 1 KFloat; SOne 1 2 KFloat];
  c_size_one := [ZOne 0 1 KFloat; ZOne 1 1 KFloat];
  c_size_rep := [];
  c_merge_rep := []%nat;
  c_merge_one := [0; 1]%nat;
  c_init := 3 |}.

(** Clustering::LowEntropy: Clear 1069-1075, MergePartialFromCodedStream 1077-1112, SerializeWithCachedSizes 1114-1125, ...ToArray 1127-1139,
    ByteSize 1141-1162, MergeFrom 1176-1184, IsInitialized 1198-1202 of schema.pb.cc; has-bits schema.pb.h:2608-2626. *)
Definition Clustering_LowEntropy_code : code := {|
  c_has := [Some 1];
  c_clear_rep := []%nat;
  c_parse := [PCase 1 0 KU64 0%nat None [] true];
  c_write := [SOne 0 1 KU64];
  c_write_array := [SOne 0 1 KU64];
  c_size_one := [ZOne 0 1 KU64];
  c_size_rep := [];
  c_merge_rep := []%nat;
  c_merge_one := [0]%nat;
  c_init := 1 |}.

(** BetaBernoulli::Shared: Clear 1542-1549, MergePartialFromCodedStream 1551-1602, SerializeWithCachedSizes 1604-1620, ...ToArray 1622-1639,
    ByteSize 1641-1665, MergeFrom 1679-1690, IsInitialized 1704-1708 of schema.pb.cc; has-bits schema.pb.h:2696-2736. *)
Definition BetaBernoulli_Shared_code : code := {|
  c_has := [Some 1; Some 2];
  c_clear_rep := []%nat;
  c_parse := [PCase 1 5 KFloat 0%nat None [(21, 1%nat)] false;
              PCase 2 5 KFloat 1%nat None [] true];
  c_write := [SOne 0 1 KFloat; SOne 1 2 KFloat];
  c_write_array := [SOne 0 1 KFloat; SOne 1 2 KFloat];
  c_size_one := [ZOne 0 1 KFloat; ZOne 1 1 KFloat];
  c_size_rep := [];
  c_merge_rep := []%nat;
  c_merge_one := [0; 1]%nat;
  c_init := 3 |}.

(** BetaBernoulli::Group: Clear 1786-1793, MergePartialFromCodedStream 1795-1846, SerializeWithCachedSizes 1848-1864, ...ToArray 1866-1883,
    ByteSize 1885-1913, MergeFrom 1927-1938, IsInitialized 1952-1956 of schema.pb.cc; has-bits schema.pb.h:2744-2784. *)
Definition BetaBernoulli_Group_code : code := {|
  c_has := [Some 1; Some 2];
  c_clear_rep := []%nat;
  c_parse := [PCase 1 0 KU64 0%nat None [(16, 1%nat)] false;
              PCase 2 0 KU64 1%nat None [] true];
  c_write := [SOne 0 1 KU64; SOne 1 2 KU64];
  c_write_array := [SOne 0 1 KU64; SOne 1 2 KU64];
  c_size_one := [ZOne 0 1 KU64; ZOne 1 1 KU64];
  c_size_rep := [];
  c_merge_rep := []%nat;
  c_merge_one := [0; 1]%nat;
  c_init := 3 |}.

(** BetaBernoulli: Clear 2030-2033, MergePartialFromCodedStream 2035-2049, SerializeWithCachedSizes 2051-2057, ...ToArray 2059-2066,
    ByteSize 2068-2080, MergeFrom 2094-2097, IsInitialized 2111-2114 of schema.pb.cc. *)
Definition BetaBernoulli_code : code := {|
  c_has := [];
  c_clear_rep := []%nat;
  c_parse := [];
  c_write := [];
  c_write_array := [];
  c_size_one := [];
  c_size_rep := [];
  c_merge_rep := []%nat;
  c_merge_one := []%nat;
  c_init := 0 |}.

(** DirichletDiscrete::Shared: Clear 2186-2190, MergePartialFromCodedStream 2192-2234, SerializeWithCachedSizes 2236-2248, ...ToArray 2250-2263,
    ByteSize 2265-2284, MergeFrom 2298-2302, IsInitialized 2316-2319 of schema.pb.cc; has-bits schema.pb.h:2796-2810. *)
Definition DirichletDiscrete_Shared_code : code := {|
  c_has := [None];
  c_clear_rep := [0]%nat;
  c_parse := [PCase 1 5 KFloat 0%nat (Some (13, KFloat)) [(13, 0%nat)] true];
  c_write := [SRep 0 1 KFloat];
  c_write_array := [SRep 0 1 KFloat];
  c_size_one := [];
  c_size_rep := [ZRep 0 1 KFloat];
  c_merge_rep := [0]%nat;
  c_merge_one := []%nat;
  c_init := 0 |}.

(** DirichletDiscrete::Group: Clear 2393-2397, MergePartialFromCodedStream 2399-2441, SerializeWithCachedSizes 2443-2455, ...ToArray 2457-2470,
    ByteSize 2472-2494, MergeFrom 2508-2512, IsInitialized 2526-2529 of schema.pb.cc; has-bits schema.pb.h:2825-2839. *)
Definition DirichletDiscrete_Group_code : code := {|
  c_has := [None];
  c_clear_rep := [0]%nat;
  c_parse := [PCase 1 0 KU64 0%nat (Some (8, KU64)) [(8, 0%nat)] true];
  c_write := [SRep 0 1 KU64];
  c_write_array := [SRep 0 1 KU64];
  c_size_one := [];
  c_size_rep := [ZRep 0 1 KU64];
  c_merge_rep := [0]%nat;
  c_merge_one := []%nat;
  c_init := 0 |}.

(** DirichletDiscrete: Clear 2602-2605, MergePartialFromCodedStream 2607-2621, SerializeWithCachedSizes 2623-2629, ...ToArray 2631-2638,
    ByteSize 2640-2652, MergeFrom 2666-2669, IsInitialized 2683-2686 of schema.pb.cc. *)
Definition DirichletDiscrete_code : code := {|
  c_has := [];
  c_clear_rep := []%nat;
  c_parse := [];
  c_write := [];
  c_write_array := [];
  c_size_one := [];
  c_size_rep := [];
  c_merge_rep := []%nat;
  c_merge_one := []%nat;
  c_init := 0 |}.

(** DirichletProcessDiscrete::Shared: Clear 2764-2774, MergePartialFromCodedStream 2776-2893, SerializeWithCachedSizes 2895-2929, ...ToArray 2931-2966,
    ByteSize 2968-3019, MergeFrom 3033-3047, IsInitialized 3061-3065 of schema.pb.cc; has-bits schema.pb.h:2858-2966. *)
Definition DirichletProcessDiscrete_Shared_code : code := {|
  c_has := [Some 1; Some 2; None; None; None];
  c_clear_rep := [2; 3; 4]%nat;
  c_parse := [PCase 1 5 KFloat 0%nat None [(21, 1%nat)] false;
              PCase 2 5 KFloat 1%nat None [(24, 2%nat)] false;
              PCase 3 0 KU32 2%nat (Some (24, KU32)) [(24, 2%nat); (37, 3%nat)] false;
              PCase 4 5 KFloat 3%nat (Some (37, KFloat)) [(37, 3%nat); (40, 4%nat)] false;
              PCase 5 0 KU64 4%nat (Some (40, KU64)) [(40, 4%nat)] true];
  c_write := [SOne 0 1 KFloat; SOne 1 2 KFloat; SRep 2 3 KU32; SRep 3 4 KFloat; SRep 4 5 KU64];
  c_write_array := [SOne 0 1 KFloat; SOne 1 2 KFloat; SRep 2 3 KU32; SRep 3 4 KFloat; SRep 4 5 KU64];
  c_size_one := [ZOne 0 1 KFloat; ZOne 1 1 KFloat];
  c_size_rep := [ZRep 2 1 KU32; ZRep 3 1 KFloat; ZRep 4 1 KU64];
  c_merge_rep := [2; 3; 4]%nat;
  c_merge_one := [0; 1]%nat;
  c_init := 3 |}.

(** DirichletProcessDiscrete::Group: Clear 3144-3149, MergePartialFromCodedStream 3151-3215, SerializeWithCachedSizes 3217-3235, ...ToArray 3237-3256,
    ByteSize 3258-3290, MergeFrom 3304-3309, IsInitialized 3323-3326 of schema.pb.cc; has-bits schema.pb.h:2981-3020. *)
Definition DirichletProcessDiscrete_Group_code : code := {|
  c_has := [None; None];
  c_clear_rep := [0; 1]%nat;
  c_parse := [PCase 1 0 KU32 0%nat (Some (8, KU32)) [(8, 0%nat); (16, 1%nat)] false;
              PCase 2 0 KU64 1%nat (Some (16, KU64)) [(16, 1%nat)] true];
  c_write := [SRep 0 1 KU32; SRep 1 2 KU64];
  c_write_array := [SRep 0 1 KU32; SRep 1 2 KU64];
  c_size_one := [];
  c_size_rep := [ZRep 0 1 KU32; ZRep 1 1 KU64];
  c_merge_rep := [0; 1]%nat;
  c_merge_one := []%nat;
  c_init := 0 |}.

(** DirichletProcessDiscrete: Clear 3400-3403, MergePartialFromCodedStream 3405-3419, SerializeWithCachedSizes 3421-3427, ...ToArray 3429-3436,
    ByteSize 3438-3450, MergeFrom 3464-3467, IsInitialized 3481-3484 of schema.pb.cc. *)
Definition DirichletProcessDiscrete_code : code := {|
  c_has := [];
  c_clear_rep := []%nat;
  c_parse := [];
  c_write := [];
  c_write_array := [];
  c_size_one := [];
  c_size_rep := [];
  c_merge_rep := []%nat;
  c_merge_one := []%nat;
  c_init := 0 |}.

(** PitmanYorProcessDiscrete::Shared: Clear 3559-3567, MergePartialFromCodedStream 3569-3648, SerializeWithCachedSizes 3650-3673, ...ToArray 3675-3699,
    ByteSize 3701-3737, MergeFrom 3751-3761, IsInitialized 3775-3779 of schema.pb.cc; has-bits schema.pb.h:3039-3100. *)
Definition PitmanYorProcessDiscrete_Shared_code : code := {|
  c_has := [Some 1; None; None];
  c_clear_rep := [1; 2]%nat;
  c_parse := [PCase 1 5 KFloat 0%nat None [(21, 1%nat)] false;
              PCase 2 5 KFloat 1%nat (Some (21, KFloat)) [(21, 1%nat); (24, 2%nat)] false;
              PCase 3 0 KU64 2%nat (Some (24, KU64)) [(24, 2%nat)] true];
  c_write := [SOne 0 1 KFloat; SRep 1 2 KFloat; SRep 2 3 KU64];
  c_write_array := [SOne 0 1 KFloat; SRep 1 2 KFloat; SRep 2 3 KU64];
  c_size_one := [ZOne 0 1 KFloat];
  c_size_rep := [ZRep 1 1 KFloat; ZRep 2 1 KU64];
  c_merge_rep := [1; 2]%nat;
  c_merge_one := [0]%nat;
  c_init := 1 |}.

(** PitmanYorProcessDiscrete::Group: Clear 3856-3861, MergePartialFromCodedStream 3863-3927, SerializeWithCachedSizes 3929-3947, ...ToArray 3949-3968,
    ByteSize 3970-4002, MergeFrom 4016-4021, IsInitialized 4035-4038 of schema.pb.cc; has-bits schema.pb.h:3115-3154. *)
Definition PitmanYorProcessDiscrete_Group_code : code := {|
  c_has := [None; None];
  c_clear_rep := [0; 1]%nat;
  c_parse := [PCase 1 0 KU32 0%nat (Some (8, KU32)) [(8, 0%nat); (16, 1%nat)] false;
              PCase 2 0 KU64 1%nat (Some (16, KU64)) [(16, 1%nat)] true];
  c_write := [SRep 0 1 KU32; SRep 1 2 KU64];
  c_write_array := [SRep 0 1 KU32; SRep 1 2 KU64];
  c_size_one := [];
  c_size_rep := [ZRep 0 1 KU32; ZRep 1 1 KU64];
  c_merge_rep := [0; 1]%nat;
  c_merge_one := []%nat;
  c_init := 0 |}.

(** PitmanYorProcessDiscrete: Clear 4112-4115, MergePartialFromCodedStream 4117-4131, SerializeWithCachedSizes 4133-4139, ...ToArray 4141-4148,
    ByteSize 4150-4162, MergeFrom 4176-4179, IsInitialized 4193-4196 of schema.pb.cc. *)
Definition PitmanYorProcessDiscrete_code : code := {|
  c_has := [];
  c_clear_rep := []%nat;
  c_parse := [];
  c_write := [];
  c_write_array := [];
  c_size_one := [];
  c_size_rep := [];
  c_merge_rep := []%nat;
  c_merge_one := []%nat;
  c_init := 0 |}.

(** GammaPoisson::Shared: Clear 4271-4278, MergePartialFromCodedStream 4280-4331, SerializeWithCachedSizes 4333-4349, ...ToArray 4351-4368,
    ByteSize 4370-4394, MergeFrom 4408-4419, IsInitialized 4433-4437 of schema.pb.cc; has-bits schema.pb.h:3173-3213. *)
Definition GammaPoisson_Shared_code : code := {|
  c_has := [Some 1; Some 2];
  c_clear_rep := []%nat;
  c_parse := [PCase 1 5 KFloat 0%nat None [(21, 1%nat)] false;
              PCase 2 5 KFloat 1%nat None [] true];
  c_write := [SOne 0 1 KFloat; SOne 1 2 KFloat];
  c_write_array := [SOne 0 1 KFloat; SOne 1 2 KFloat];
  c_size_one := [ZOne 0 1 KFloat; ZOne 1 1 KFloat];
  c_size_rep := [];
  c_merge_rep := []%nat;
  c_merge_one := [0; 1]%nat;
  c_init := 3 |}.

(** GammaPoisson::Group: Clear 4517-4525, MergePartialFromCodedStream 4527-4594, SerializeWithCachedSizes 4596-4617, ...ToArray 4619-4641,
    ByteSize 4643-4676, MergeFrom 4690-4704, IsInitialized 4718-4722 of schema.pb.cc; has-bits schema.pb.h:3221-3283. *)
Definition GammaPoisson_Group_code : code := {|
  c_has := [Some 1; Some 2; Some 4];
  c_clear_rep := []%nat;
  c_parse := [PCase 1 0 KU64 0%nat None [(16, 1%nat)] false;
              PCase 2 0 KU64 1%nat None [(29, 2%nat)] false;
              PCase 3 5 KFloat 2%nat None [] true];
  c_write := [SOne 0 1 KU64; SOne 1 2 KU64; SOne 2 3 KFloat];
  c_write_array := [SOne 0 1 KU64; SOne 1 2 KU64; SOne 2 3 KFloat];
  c_size_one := [ZOne 0 1 KU64; ZOne 1 1 KU64; ZOne 2 1 KFloat];
  c_size_rep := [];
  c_merge_rep := []%nat;
  c_merge_one := [0; 1; 2]%nat;
  c_init := 7 |}.

(** GammaPoisson: Clear 4797-4800, MergePartialFromCodedStream 4802-4816, SerializeWithCachedSizes 4818-4824, ...ToArray 4826-4833,
    ByteSize 4835-4847, MergeFrom 4861-4864, IsInitialized 4878-4881 of schema.pb.cc. *)
Definition GammaPoisson_code : code := {|
  c_has := [];
  c_clear_rep := []%nat;
  c_parse := [];
  c_write := [];
  c_write_array := [];
  c_size_one := [];
  c_size_rep := [];
  c_merge_rep := []%nat;
  c_merge_one := []%nat;
  c_init := 0 |}.

(** BetaNegativeBinomial::Shared: Clear 4958-4966, MergePartialFromCodedStream 4968-5035, SerializeWithCachedSizes 5037-5058, ...ToArray 5060-5082,
    ByteSize 5084-5115, MergeFrom 5129-5143, IsInitialized 5157-5161 of schema.pb.cc; has-bits schema.pb.h:3295-3357. *)
Definition BetaNegativeBinomial_Shared_code : code := {|
  c_has := [Some 1; Some 2; Some 4];
  c_clear_rep := []%nat;
  c_parse := [PCase 1 5 KFloat 0%nat None [(21, 1%nat)] false;
              PCase 2 5 KFloat 1%nat None [(24, 2%nat)] false;
              PCase 3 0 KU64 2%nat None [] true];
  c_write := [SOne 0 1 KFloat; SOne 1 2 KFloat; SOne 2 3 KU64];
  c_write_array := [SOne 0 1 KFloat; SOne 1 2 KFloat; SOne 2 3 KU64];
  c_size_one := [ZOne 0 1 KFloat; ZOne 1 1 KFloat; ZOne 2 1 KU64];
  c_size_rep := [];
  c_merge_rep := []%nat;
  c_merge_one := [0; 1; 2]%nat;
  c_init := 7 |}.

(** BetaNegativeBinomial::Group: Clear 5240-5247, MergePartialFromCodedStream 5249-5300, SerializeWithCachedSizes 5302-5318, ...ToArray 5320-5337,
    ByteSize 5339-5367, MergeFrom 5381-5392, IsInitialized 5406-5410 of schema.pb.cc; has-bits schema.pb.h:3365-3405. *)
Definition BetaNegativeBinomial_Group_code : code := {|
  c_has := [Some 1; Some 2];
  c_clear_rep := []%nat;
  c_parse := [PCase 1 0 KU64 0%nat None [(16, 1%nat)] false;
              PCase 2 0 KU64 1%nat None [] true];
  c_write := [SOne 0 1 KU64; SOne 1 2 KU64];
  c_write_array := [SOne 0 1 KU64; SOne 1 2 KU64];
  c_size_one := [ZOne 0 1 KU64; ZOne 1 1 KU64];
  c_size_rep := [];
  c_merge_rep := []%nat;
  c_merge_one := [0; 1]%nat;
  c_init := 3 |}.

(** BetaNegativeBinomial: Clear 5484-5487, MergePartialFromCodedStream 5489-5503, SerializeWithCachedSizes 5505-5511, ...ToArray 5513-5520,
    ByteSize 5522-5534, MergeFrom 5548-5551, IsInitialized 5565-5568 of schema.pb.cc. *)
Definition BetaNegativeBinomial_code : code := {|
  c_has := [];
  c_clear_rep := []%nat;
  c_parse := [];
  c_write := [];
  c_write_array := [];
  c_size_one := [];
  c_size_rep := [];
  c_merge_rep := []%nat;
  c_merge_one := []%nat;
  c_init := 0 |}.

(** NormalInverseChiSq::Shared: Clear 5647-5656, MergePartialFromCodedStream 5658-5741, SerializeWithCachedSizes 5743-5769, ...ToArray 5771-5798,
    ByteSize 5800-5834, MergeFrom 5848-5865, IsInitialized 5879-5883 of schema.pb.cc; has-bits schema.pb.h:3417-3501. *)
Definition NormalInverseChiSq_Shared_code : code := {|
  c_has := [Some 1; Some 2; Some 4; Some 8];
  c_clear_rep := []%nat;
  c_parse := [PCase 1 5 KFloat 0%nat None [(21, 1%nat)] false;
              PCase 2 5 KFloat 1%nat None [(29, 2%nat)] false;
              PCase 3 5 KFloat 2%nat None [(37, 3%nat)] false;
              PCase 4 5 KFloat 3%nat None [] true];
  c_write := [SOne 0 1 KFloat; SOne 1 2 KFloat; SOne 2 3 KFloat; SOne 3 4 KFloat];
  c_write_array := [SOne 0 1 KFloat; SOne 1 2 KFloat; SOne 2 3 KFloat; SOne 3 4 KFloat];
  c_size_one := [ZOne 0 1 KFloat; ZOne 1 1 KFloat; ZOne 2 1 KFloat; ZOne 3 1 KFloat];
  c_size_rep := [];
  c_merge_rep := []%nat;
  c_merge_one := [0; 1; 2; 3]%nat;
  c_init := 15 |}.

(** NormalInverseChiSq::Group: Clear 5965-5973, MergePartialFromCodedStream 5975-6042, SerializeWithCachedSizes 6044-6065, ...ToArray 6067-6089,
    ByteSize 6091-6122, MergeFrom 6136-6150, IsInitialized 6164-6168 of schema.pb.cc; has-bits schema.pb.h:3509-3571. *)
Definition NormalInverseChiSq_Group_code : code := {|
  c_has := [Some 1; Some 2; Some 4];
  c_clear_rep := []%nat;
  c_parse := [PCase 1 0 KU64 0%nat None [(21, 1%nat)] false;
              PCase 2 5 KFloat 1%nat None [(29, 2%nat)] false;
              PCase 3 5 KFloat 2%nat None [] true];
  c_write := [SOne 0 1 KU64; SOne 1 2 KFloat; SOne 2 3 KFloat];
  c_write_array := [SOne 0 1 KU64; SOne 1 2 KFloat; SOne 2 3 KFloat];
  c_size_one := [ZOne 0 1 KU64; ZOne 1 1 KFloat; ZOne 2 1 KFloat];
  c_size_rep := [];
  c_merge_rep := []%nat;
  c_merge_one := [0; 1; 2]%nat;
  c_init := 7 |}.

(** NormalInverseChiSq: Clear 6243-6246, MergePartialFromCodedStream 6248-6262, SerializeWithCachedSizes 6264-6270, ...ToArray 6272-6279,
    ByteSize 6281-6293, MergeFrom 6307-6310, IsInitialized 6324-6327 of schema.pb.cc. *)
Definition NormalInverseChiSq_code : code := {|
  c_has := [];
  c_clear_rep := []%nat;
  c_parse := [];
  c_write := [];
  c_write_array := [];
  c_size_one := [];
  c_size_rep := [];
  c_merge_rep := []%nat;
  c_merge_one := []%nat;
  c_init := 0 |}.

(** NormalInverseWishart::Shared: Clear 6404-6413, MergePartialFromCodedStream 6415-6511, SerializeWithCachedSizes 6513-6541, ...ToArray 6543-6572,
    ByteSize 6574-6612, MergeFrom 6626-6639, IsInitialized 6653-6657 of schema.pb.cc; has-bits schema.pb.h:3583-3673. *)
Definition NormalInverseWishart_Shared_code : code := {|
  c_has := [None; Some 2; None; Some 8];
  c_clear_rep := [0; 2]%nat;
  c_parse := [PCase 1 5 KFloat 0%nat (Some (13, KFloat)) [(13, 0%nat); (21, 1%nat)] false;
              PCase 2 5 KFloat 1%nat None [(29, 2%nat)] false;
              PCase 3 5 KFloat 2%nat (Some (29, KFloat)) [(29, 2%nat); (37, 3%nat)] false;
              PCase 4 5 KFloat 3%nat None [] true];
  c_write := [SRep 0 1 KFloat; SOne 1 2 KFloat; SRep 2 3 KFloat; SOne 3 4 KFloat];
  c_write_array := [SRep 0 1 KFloat; SOne 1 2 KFloat; SRep 2 3 KFloat; SOne 3 4 KFloat];
  c_size_one := [ZOne 1 1 KFloat; ZOne 3 1 KFloat];
  c_size_rep := [ZRep 0 1 KFloat; ZRep 2 1 KFloat];
  c_merge_rep := [0; 2]%nat;
  c_merge_one := [1; 3]%nat;
  c_init := 10 |}.

(** NormalInverseWishart::Group: Clear 6737-6745, MergePartialFromCodedStream 6747-6826, SerializeWithCachedSizes 6828-6851, ...ToArray 6853-6877,
    ByteSize 6879-6914, MergeFrom 6928-6938, IsInitialized 6952-6956 of schema.pb.cc; has-bits schema.pb.h:3681-3742. *)
Definition NormalInverseWishart_Group_code : code := {|
  c_has := [Some 1; None; None];
  c_clear_rep := [1; 2]%nat;
  c_parse := [PCase 1 0 KI32 0%nat None [(21, 1%nat)] false;
              PCase 2 5 KFloat 1%nat (Some (21, KFloat)) [(21, 1%nat); (29, 2%nat)] false;
              PCase 3 5 KFloat 2%nat (Some (29, KFloat)) [(29, 2%nat)] true];
  c_write := [SOne 0 1 KI32; SRep 1 2 KFloat; SRep 2 3 KFloat];
  c_write_array := [SOne 0 1 KI32; SRep 1 2 KFloat; SRep 2 3 KFloat];
  c_size_one := [ZOne 0 1 KI32];
  c_size_rep := [ZRep 1 1 KFloat; ZRep 2 1 KFloat];
  c_merge_rep := [1; 2]%nat;
  c_merge_one := [0]%nat;
  c_init := 1 |}.

(** NormalInverseWishart: Clear 7031-7034, MergePartialFromCodedStream 7036-7050, SerializeWithCachedSizes 7052-7058, ...ToArray 7060-7067,
    ByteSize 7069-7081, MergeFrom 7095-7098, IsInitialized 7112-7115 of schema.pb.cc. *)
Definition NormalInverseWishart_code : code := {|
  c_has := [];
  c_clear_rep := []%nat;
  c_parse := [];
  c_write := [];
  c_write_array := [];
  c_size_one := [];
  c_size_rep := [];
  c_merge_rep := []%nat;
  c_merge_one := []%nat;
  c_init := 0 |}.

(** All of them, by the name of the message. *)
Definition schema_pb : list (string * code) :=
  [ ("Clustering.PitmanYor", Clustering_PitmanYor_code);
    ("Clustering.LowEntropy", Clustering_LowEntropy_code);
    ("BetaBernoulli.Shared", BetaBernoulli_Shared_code);
    ("BetaBernoulli.Group", BetaBernoulli_Group_code);
    ("BetaBernoulli", BetaBernoulli_code);
    ("DirichletDiscrete.Shared", DirichletDiscrete_Shared_code);
    ("DirichletDiscrete.Group", DirichletDiscrete_Group_code);
    ("DirichletDiscrete", DirichletDiscrete_code);
    ("DirichletProcessDiscrete.Shared", DirichletProcessDiscrete_Shared_code);
    ("DirichletProcessDiscrete.Group", DirichletProcessDiscrete_Group_code);
    ("DirichletProcessDiscrete", DirichletProcessDiscrete_code);
    ("PitmanYorProcessDiscrete.Shared", PitmanYorProcessDiscrete_Shared_code);
    ("PitmanYorProcessDiscrete.Group", PitmanYorProcessDiscrete_Group_code);
    ("PitmanYorProcessDiscrete", PitmanYorProcessDiscrete_code);
    ("GammaPoisson.Shared", GammaPoisson_Shared_code);
    ("GammaPoisson.Group", GammaPoisson_Group_code);
    ("GammaPoisson", GammaPoisson_code);
    ("BetaNegativeBinomial.Shared", BetaNegativeBinomial_Shared_code);
    ("BetaNegativeBinomial.Group", BetaNegativeBinomial_Group_code);
    ("BetaNegativeBinomial", BetaNegativeBinomial_code);
    ("NormalInverseChiSq.Shared", NormalInverseChiSq_Shared_code);
    ("NormalInverseChiSq.Group", NormalInverseChiSq_Group_code);
    ("NormalInverseChiSq", NormalInverseChiSq_code);
    ("NormalInverseWishart.Shared", NormalInverseWishart_Shared_code);
    ("NormalInverseWishart.Group", NormalInverseWishart_Group_code);
    ("NormalInverseWishart", NormalInverseWishart_code) ]%string.
