(** NFC rule tables of the Brahmic scripts and of Arabic.
    Generated by rocq/gen/gentables.py, do not edit. *)
From Verif Require Import Base RuleModel.

(** nisaba/scripts/brahmic/data/Beng/uname_prefix.textproto, nisaba/scripts/brahmic/data/Beng/nfc.textproto *)
Definition nfc_Beng : list rule :=
  [Rule [2503; 2494] [2507];
   Rule [2503; 2519] [2508];
   Rule [2524] [2465; 2492];
   Rule [2525] [2466; 2492];
   Rule [2527] [2479; 2492]]%N.

(** an empty file *)
Definition nfc_Bugi : list rule :=
  []%N.

(** nisaba/scripts/brahmic/data/Deva/uname_prefix.textproto, nisaba/scripts/brahmic/data/Deva/nfc.textproto *)
Definition nfc_Deva : list rule :=
  [Rule [2344; 2364] [2345];
   Rule [2352; 2364] [2353];
   Rule [2355; 2364] [2356];
   Rule [2392] [2325; 2364];
   Rule [2393] [2326; 2364];
   Rule [2394] [2327; 2364];
   Rule [2395] [2332; 2364];
   Rule [2396] [2337; 2364];
   Rule [2397] [2338; 2364];
   Rule [2398] [2347; 2364];
   Rule [2399] [2351; 2364]]%N.

(** an empty file *)
Definition nfc_Gujr : list rule :=
  []%N.

(** nisaba/scripts/brahmic/data/Guru/uname_prefix.textproto, nisaba/scripts/brahmic/data/Guru/nfc.textproto *)
Definition nfc_Guru : list rule :=
  [Rule [2611] [2610; 2620];
   Rule [2614] [2616; 2620];
   Rule [2649] [2582; 2620];
   Rule [2650] [2583; 2620];
   Rule [2651] [2588; 2620];
   Rule [2654] [2603; 2620]]%N.

(** nisaba/scripts/brahmic/data/Knda/uname_prefix.textproto, nisaba/scripts/brahmic/data/Knda/nfc.textproto *)
Definition nfc_Knda : list rule :=
  [Rule [3263; 3285] [3264];
   Rule [3270; 3285] [3271];
   Rule [3270; 3286] [3272];
   Rule [3270; 3266] [3274];
   Rule [3274; 3285] [3275];
   Rule [3270; 3266; 3285] [3275]]%N.

(** an empty file *)
Definition nfc_Lepc : list rule :=
  []%N.

(** an empty file *)
Definition nfc_Limb : list rule :=
  []%N.

(** nisaba/scripts/brahmic/data/Mlym/uname_prefix.textproto, nisaba/scripts/brahmic/data/Mlym/nfc.textproto *)
Definition nfc_Mlym : list rule :=
  [Rule [3398; 3390] [3402];
   Rule [3399; 3390] [3403];
   Rule [3398; 3415] [3404]]%N.

(** an empty file *)
Definition nfc_Mtei : list rule :=
  []%N.

(** an empty file *)
Definition nfc_Newa : list rule :=
  []%N.

(** nisaba/scripts/brahmic/data/Orya/uname_prefix.textproto, nisaba/scripts/brahmic/data/Orya/nfc.textproto *)
Definition nfc_Orya : list rule :=
  [Rule [2887; 2902] [2888];
   Rule [2887; 2878] [2891];
   Rule [2887; 2903] [2892];
   Rule [2908] [2849; 2876];
   Rule [2909] [2850; 2876]]%N.

(** nisaba/scripts/brahmic/data/Sinh/uname_prefix.textproto, nisaba/scripts/brahmic/data/Sinh/nfc.textproto *)
Definition nfc_Sinh : list rule :=
  [Rule [3545; 3530] [3546];
   Rule [3545; 3535] [3548];
   Rule [3548; 3530] [3549];
   Rule [3545; 3535; 3530] [3549];
   Rule [3545; 3551] [3550]]%N.

(** an empty file *)
Definition nfc_Sylo : list rule :=
  []%N.

(** an empty file *)
Definition nfc_Takr : list rule :=
  []%N.

(** nisaba/scripts/brahmic/data/Taml/uname_prefix.textproto, nisaba/scripts/brahmic/data/Taml/nfc.textproto *)
Definition nfc_Taml : list rule :=
  [Rule [2962; 3031] [2964];
   Rule [3014; 3006] [3018];
   Rule [3015; 3006] [3019];
   Rule [3014; 3031] [3020]]%N.

(** nisaba/scripts/brahmic/data/Telu/uname_prefix.textproto, nisaba/scripts/brahmic/data/Telu/nfc.textproto *)
Definition nfc_Telu : list rule :=
  [Rule [3142; 3158] [3144]]%N.

(** an empty file *)
Definition nfc_Tglg : list rule :=
  []%N.

(** an empty file *)
Definition nfc_Thaa : list rule :=
  []%N.

(** nisaba/scripts/brahmic/data/Tirh/uname_prefix.textproto, nisaba/scripts/brahmic/data/Tirh/nfc.textproto *)
Definition nfc_Tirh : list rule :=
  [Rule [70841; 70842] [70843];
   Rule [70841; 70832] [70844];
   Rule [70841; 70845] [70846]]%N.

(** nfc.py:45-52: all_rules, in the order of u.SCRIPTS *)
Definition nfc_BRAHMIC : list rule :=
  nfc_Beng ++ nfc_Bugi ++ nfc_Deva ++ nfc_Gujr ++ nfc_Guru ++ nfc_Knda ++ nfc_Lepc ++ nfc_Limb ++ nfc_Mlym ++ nfc_Mtei ++ nfc_Newa ++ nfc_Orya ++ nfc_Sinh ++ nfc_Sylo ++ nfc_Takr ++ nfc_Taml ++ nfc_Telu ++ nfc_Tglg ++ nfc_Thaa ++ nfc_Tirh.

Definition nfc_brahmic_tables : list (list rule) :=
  [nfc_Beng; nfc_Bugi; nfc_Deva; nfc_Gujr; nfc_Guru; nfc_Knda; nfc_Lepc; nfc_Limb; nfc_Mlym; nfc_Mtei; nfc_Newa; nfc_Orya; nfc_Sinh; nfc_Sylo; nfc_Takr; nfc_Taml; nfc_Telu; nfc_Tglg; nfc_Thaa; nfc_Tirh].

(** nisaba/scripts/abjad_alphabet/data/Arab/nfc.textproto *)
Definition nfc_ARAB : list rule :=
  [Rule [1575; 1619] [1570];
   Rule [1570; 1621] [1573; 1619];
   Rule [1575; 1648; 1619] [1570; 1648];
   Rule [1575; 1620] [1571];
   Rule [1575; 1621] [1573];
   Rule [1608; 1620] [1572];
   Rule [1729; 1620] [1730];
   Rule [1746; 1620] [1747];
   Rule [1617; 1614] [1614; 1617];
   Rule [1617; 1611] [1611; 1617];
   Rule [1617; 1616] [1616; 1617];
   Rule [1617; 1613] [1613; 1617];
   Rule [1617; 1615] [1615; 1617];
   Rule [1617; 1612] [1612; 1617];
   Rule [1616; 1613] [1613; 1616];
   Rule [1615; 1612] [1612; 1615];
   Rule [1615; 1614] [1614; 1615];
   Rule [1615; 1611] [1611; 1615];
   Rule [1614; 1611] [1611; 1614];
   Rule [1614; 1613] [1613; 1614];
   Rule [1616; 1611] [1611; 1616];
   Rule [1613; 1611] [1611; 1613];
   Rule [1616; 1614] [1614; 1616];
   Rule [1618; 1617] [1617; 1618];
   Rule [1618; 1616] [1616; 1618];
   Rule [1761; 1615] [1615; 1761];
   Rule [1557; 1616] [1616; 1557]]%N.
