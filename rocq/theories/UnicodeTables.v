(** Canonical decomposition mappings and combining classes (Unicode 14.0.0) of the
    characters in the NFC rule tables.
    Generated by rocq/gen/gentables.py, do not edit. *)
From Verif Require Import Base RuleModel.

Definition decomp_table : list (N * str) :=
  [(1570, [1575; 1619]);
   (1571, [1575; 1620]);
   (1572, [1608; 1620]);
   (1573, [1575; 1621]);
   (1730, [1729; 1620]);
   (1747, [1746; 1620]);
   (2345, [2344; 2364]);
   (2353, [2352; 2364]);
   (2356, [2355; 2364]);
   (2392, [2325; 2364]);
   (2393, [2326; 2364]);
   (2394, [2327; 2364]);
   (2395, [2332; 2364]);
   (2396, [2337; 2364]);
   (2397, [2338; 2364]);
   (2398, [2347; 2364]);
   (2399, [2351; 2364]);
   (2507, [2503; 2494]);
   (2508, [2503; 2519]);
   (2524, [2465; 2492]);
   (2525, [2466; 2492]);
   (2527, [2479; 2492]);
   (2611, [2610; 2620]);
   (2614, [2616; 2620]);
   (2649, [2582; 2620]);
   (2650, [2583; 2620]);
   (2651, [2588; 2620]);
   (2654, [2603; 2620]);
   (2888, [2887; 2902]);
   (2891, [2887; 2878]);
   (2892, [2887; 2903]);
   (2908, [2849; 2876]);
   (2909, [2850; 2876]);
   (2964, [2962; 3031]);
   (3018, [3014; 3006]);
   (3019, [3015; 3006]);
   (3020, [3014; 3031]);
   (3144, [3142; 3158]);
   (3264, [3263; 3285]);
   (3271, [3270; 3285]);
   (3272, [3270; 3286]);
   (3274, [3270; 3266]);
   (3275, [3274; 3285]);
   (3402, [3398; 3390]);
   (3403, [3399; 3390]);
   (3404, [3398; 3415]);
   (3546, [3545; 3530]);
   (3548, [3545; 3535]);
   (3549, [3548; 3530]);
   (3550, [3545; 3551]);
   (70843, [70841; 70842]);
   (70844, [70841; 70832]);
   (70846, [70841; 70845])]%N.

Definition ccc_table : list (N * N) :=
  [(1557, 230); (1611, 27); (1612, 28); (1613, 29); (1614, 30); (1615, 31); (1616, 32); (1617, 33); (1618, 34); (1619, 230); (1620, 230); (1621, 220); (1648, 35); (1761, 230); (2364, 7); (2492, 7); (2620, 7); (2876, 7); (3158, 91); (3530, 9)]%N.
