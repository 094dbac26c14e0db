(** Generated by gen/genspellout.py: the letters of English and their names in other
    languages and scripts, nisaba/scripts/natural_translit/brahmic/en_spellout.py:105-522. *)
From Coq Require Import String.
From Verif Require Import Base.
Local Open Scope N_scope.
Local Open Scope string_scope.
Local Open Scope list_scope.
Definition spellouts : list (N * list (string * list N)) :=
 [(97, [("bn_beng", [2447]);
    ("gu_gujr", [2703]);
    ("hi_deva", [2319]);
    ("kn_knda", [3214]);
    ("ml_mlym", [3342]);
    ("mr_deva", [2319]);
    ("or_orya", [2831]);
    ("pa_guru", [2575]);
    ("sd_arab", [1575; 1610]);
    ("si_sinh", [3474]);
    ("ta_taml", [2959]);
    ("te_telu", [3086]);
    ("ur_arab", [1575; 1746])]);
  (98, [("bn_beng", [2476; 2495]);
    ("gu_gujr", [2732; 2752]);
    ("hi_deva", [2348; 2368]);
    ("kn_knda", [3244; 3263]);
    ("ml_mlym", [3372; 3391]);
    ("mr_deva", [2348; 2368]);
    ("or_orya", [2860; 2879]);
    ("pa_guru", [2604; 2624]);
    ("sd_arab", [1576; 1610]);
    ("si_sinh", [3510; 3539]);
    ("ta_taml", [2986; 3007]);
    ("te_telu", [3116; 3135]);
    ("ur_arab", [1576; 1740])]);
  (99, [("bn_beng", [2488; 2495]);
    ("gu_gujr", [2744; 2752]);
    ("hi_deva", [2360; 2368]);
    ("kn_knda", [3256; 3263]);
    ("ml_mlym", [3384; 3391]);
    ("mr_deva", [2360; 2368]);
    ("or_orya", [2872; 2879]);
    ("pa_guru", [2616; 2624]);
    ("sd_arab", [1587; 1610]);
    ("si_sinh", [3523; 3539]);
    ("ta_taml", [2970; 3007]);
    ("te_telu", [3128; 3135]);
    ("ur_arab", [1587; 1740])]);
  (100, [("bn_beng", [2465; 2495]);
    ("gu_gujr", [2721; 2752]);
    ("hi_deva", [2337; 2368]);
    ("kn_knda", [3233; 3263]);
    ("ml_mlym", [3361; 3391]);
    ("mr_deva", [2337; 2368]);
    ("or_orya", [2849; 2879]);
    ("pa_guru", [2593; 2624]);
    ("sd_arab", [1674; 1610]);
    ("si_sinh", [3497; 3539]);
    ("ta_taml", [2975; 3007]);
    ("te_telu", [3105; 3135]);
    ("ur_arab", [1672; 1740])]);
  (101, [("bn_beng", [2439]);
    ("gu_gujr", [2696]);
    ("hi_deva", [2312]);
    ("kn_knda", [3207]);
    ("ml_mlym", [3335]);
    ("mr_deva", [2312]);
    ("or_orya", [2823]);
    ("pa_guru", [2568]);
    ("sd_arab", [1575; 1610]);
    ("si_sinh", [3466]);
    ("ta_taml", [2951]);
    ("te_telu", [3079]);
    ("ur_arab", [1575; 1740])]);
  (102, [("bn_beng", [2447; 2475]);
    ("gu_gujr", [2703; 2731]);
    ("hi_deva", [2319; 2347; 2364]);
    ("kn_knda", [3214; 3243; 3277; 8204]);
    ("ml_mlym", [3342; 3371; 3405; 8204]);
    ("mr_deva", [2319; 2347]);
    ("or_orya", [2831; 2859]);
    ("pa_guru", [2576; 2673; 2603; 2620]);
    ("sd_arab", [1575; 1610; 1601]);
    ("si_sinh", [3473; 3526; 3530]);
    ("ta_taml", [2958; 2947; 2986; 3021]);
    ("te_telu", [3086; 3115; 3149; 8204]);
    ("ur_arab", [1575; 1740; 1601])]);
  (103, [("bn_beng", [2460; 2495]);
    ("gu_gujr", [2716; 2752]);
    ("hi_deva", [2332; 2368]);
    ("kn_knda", [3228; 3263]);
    ("ml_mlym", [3356; 3391]);
    ("mr_deva", [2332; 2368]);
    ("or_orya", [2844; 2879]);
    ("pa_guru", [2588; 2624]);
    ("sd_arab", [1580; 1610]);
    ("si_sinh", [3490; 3539]);
    ("ta_taml", [2972; 3007]);
    ("te_telu", [3100; 3135]);
    ("ur_arab", [1580; 1740])]);
  (104, [("bn_beng", [2447; 2439; 2458]);
    ("gu_gujr", [2703; 2714]);
    ("hi_deva", [2319; 2330]);
    ("kn_knda", [3214; 3226; 3277; 8204]);
    ("ml_mlym", [3342; 3354; 3405; 3354; 3405; 8204]);
    ("mr_deva", [2319; 2330]);
    ("or_orya", [2831; 2823; 2842]);
    ("pa_guru", [2576; 2673; 2586]);
    ("sd_arab", [1575; 1610; 1671]);
    ("si_sinh", [3473; 3488; 3530]);
    ("ta_taml", [3001; 3014; 2970; 3021]);
    ("te_telu", [3129; 3142; 3098; 3149; 8204]);
    ("ur_arab", [1575; 1740; 1670])]);
  (105, [("bn_beng", [2438; 2439]);
    ("gu_gujr", [2694; 2695]);
    ("hi_deva", [2310; 2312]);
    ("kn_knda", [3216]);
    ("ml_mlym", [3344]);
    ("mr_deva", [2310; 2351]);
    ("or_orya", [2822; 2823]);
    ("pa_guru", [2566; 2568]);
    ("sd_arab", [1570; 1569; 1616]);
    ("si_sinh", [3461; 3514; 3538]);
    ("ta_taml", [2960]);
    ("te_telu", [3088]);
    ("ur_arab", [1570; 1574; 1740])]);
  (106, [("bn_beng", [2460; 2503]);
    ("gu_gujr", [2716; 2759]);
    ("hi_deva", [2332; 2375]);
    ("kn_knda", [3228; 3270]);
    ("ml_mlym", [3356; 3398]);
    ("mr_deva", [2332; 2375]);
    ("or_orya", [2844; 2887]);
    ("pa_guru", [2588; 2631]);
    ("sd_arab", [1580; 1610]);
    ("si_sinh", [3490; 3546]);
    ("ta_taml", [2972; 3015]);
    ("te_telu", [3100; 3142]);
    ("ur_arab", [1580; 1746])]);
  (107, [("bn_beng", [2453; 2503]);
    ("gu_gujr", [2709; 2759]);
    ("hi_deva", [2325; 2375]);
    ("kn_knda", [3221; 3270]);
    ("ml_mlym", [3349; 3398]);
    ("mr_deva", [2325; 2375]);
    ("or_orya", [2837; 2887]);
    ("pa_guru", [2581; 2631]);
    ("sd_arab", [1706; 1610]);
    ("si_sinh", [3482; 3546]);
    ("ta_taml", [2965; 3015]);
    ("te_telu", [3093; 3142]);
    ("ur_arab", [1705; 1746])]);
  (108, [("bn_beng", [2447; 2482]);
    ("gu_gujr", [2703; 2738]);
    ("hi_deva", [2319; 2354]);
    ("kn_knda", [3214; 3250; 3277; 8204]);
    ("ml_mlym", [3342; 3453]);
    ("mr_deva", [2319; 2354]);
    ("or_orya", [2831; 2866]);
    ("pa_guru", [2576; 2673; 2610]);
    ("sd_arab", [1575; 1610; 1604]);
    ("si_sinh", [3473; 3517; 3530]);
    ("ta_taml", [2958; 2994; 3021]);
    ("te_telu", [3086; 3122; 3149; 8204]);
    ("ur_arab", [1575; 1740; 1604])]);
  (109, [("bn_beng", [2447; 2478]);
    ("gu_gujr", [2703; 2734]);
    ("hi_deva", [2319; 2350]);
    ("kn_knda", [3214; 3202]);
    ("ml_mlym", [3342; 3330]);
    ("mr_deva", [2319; 2350]);
    ("or_orya", [2831; 2862]);
    ("pa_guru", [2576; 2673; 2606]);
    ("sd_arab", [1575; 1610; 1605]);
    ("si_sinh", [3473; 3512; 3530]);
    ("ta_taml", [2958; 2990; 3021]);
    ("te_telu", [3086; 3074]);
    ("ur_arab", [1575; 1740; 1605])]);
  (110, [("bn_beng", [2447; 2472]);
    ("gu_gujr", [2703; 2728]);
    ("hi_deva", [2319; 2344]);
    ("kn_knda", [3214; 3240; 3277; 8204]);
    ("ml_mlym", [3342; 3451]);
    ("mr_deva", [2319; 2344]);
    ("or_orya", [2831; 2856]);
    ("pa_guru", [2576; 2673; 2600]);
    ("sd_arab", [1575; 1610; 1606]);
    ("si_sinh", [3473; 3505; 3530]);
    ("ta_taml", [2958; 2985; 3021]);
    ("te_telu", [3086; 3112; 3149; 8204]);
    ("ur_arab", [1575; 1740; 1606])]);
  (111, [("bn_beng", [2451]);
    ("gu_gujr", [2707]);
    ("hi_deva", [2323]);
    ("kn_knda", [3218]);
    ("ml_mlym", [3346]);
    ("mr_deva", [2323]);
    ("or_orya", [2835]);
    ("pa_guru", [2579]);
    ("sd_arab", [1575; 1608]);
    ("si_sinh", [3477]);
    ("ta_taml", [2963]);
    ("te_telu", [3090]);
    ("ur_arab", [1575; 1608])]);
  (112, [("bn_beng", [2474; 2495]);
    ("gu_gujr", [2730; 2752]);
    ("hi_deva", [2346; 2368]);
    ("kn_knda", [3242; 3263]);
    ("ml_mlym", [3370; 3391]);
    ("mr_deva", [2346; 2368]);
    ("or_orya", [2858; 2879]);
    ("pa_guru", [2602; 2624]);
    ("sd_arab", [1662; 1610]);
    ("si_sinh", [3508; 3539]);
    ("ta_taml", [2986; 3007]);
    ("te_telu", [3114; 3135]);
    ("ur_arab", [1662; 1740])]);
  (113, [("bn_beng", [2453; 2495; 2441]);
    ("gu_gujr", [2709; 2765; 2735; 2753]);
    ("hi_deva", [2325; 2381; 2351; 2370]);
    ("kn_knda", [3221; 3277; 3247; 3266]);
    ("ml_mlym", [3349; 3405; 3375; 3393]);
    ("mr_deva", [2325; 2381; 2351; 2370]);
    ("or_orya", [2837; 2879; 2825]);
    ("pa_guru", [2581; 2623; 2570]);
    ("sd_arab", [1705; 1610; 1608]);
    ("si_sinh", [3482; 3538; 3514; 3540]);
    ("ta_taml", [2965; 3007; 2991; 3010]);
    ("te_telu", [3093; 3149; 3119; 3137]);
    ("ur_arab", [1705; 1740; 1608])]);
  (114, [("bn_beng", [2438; 2480]);
    ("gu_gujr", [2694; 2736]);
    ("hi_deva", [2310; 2352]);
    ("kn_knda", [3206; 3248; 3277; 8204]);
    ("ml_mlym", [3334; 3452]);
    ("mr_deva", [2310; 2352]);
    ("or_orya", [2822; 2864]);
    ("pa_guru", [2566; 2608]);
    ("sd_arab", [1570; 1585]);
    ("si_sinh", [3462; 3515; 3530]);
    ("ta_taml", [2950; 2992; 3021]);
    ("te_telu", [3078; 3120; 3149; 8204]);
    ("ur_arab", [1570; 1585])]);
  (115, [("bn_beng", [2447; 2488]);
    ("gu_gujr", [2703; 2744]);
    ("hi_deva", [2319; 2360]);
    ("kn_knda", [3214; 3256; 3277; 8204]);
    ("ml_mlym", [3342; 3384; 3405; 8204]);
    ("mr_deva", [2319; 2360]);
    ("or_orya", [2831; 2872]);
    ("pa_guru", [2576; 2673; 2616]);
    ("sd_arab", [1575; 1610; 1587]);
    ("si_sinh", [3473; 3523; 3530]);
    ("ta_taml", [2958; 3000; 3021]);
    ("te_telu", [3086; 3128; 3149; 8204]);
    ("ur_arab", [1575; 1740; 1587])]);
  (116, [("bn_beng", [2463; 2495]);
    ("gu_gujr", [2719; 2752]);
    ("hi_deva", [2335; 2368]);
    ("kn_knda", [3231; 3263]);
    ("ml_mlym", [3359; 3391]);
    ("mr_deva", [2335; 2368]);
    ("or_orya", [2847; 2879]);
    ("pa_guru", [2591; 2624]);
    ("sd_arab", [1661; 1610]);
    ("si_sinh", [3495; 3539]);
    ("ta_taml", [2975; 3007]);
    ("te_telu", [3103; 3135]);
    ("ur_arab", [1657; 1740])]);
  (117, [("bn_beng", [2439; 2441]);
    ("gu_gujr", [2735; 2753]);
    ("hi_deva", [2351; 2370]);
    ("kn_knda", [3247; 3265]);
    ("ml_mlym", [3375; 3393]);
    ("mr_deva", [2351; 2370]);
    ("or_orya", [2823; 2825]);
    ("pa_guru", [2607; 2626]);
    ("sd_arab", [1610; 1608]);
    ("si_sinh", [3514; 3542]);
    ("ta_taml", [2991; 3010]);
    ("te_telu", [3119; 3137]);
    ("ur_arab", [1740; 1608])]);
  (118, [("bn_beng", [2477; 2495]);
    ("gu_gujr", [2741; 2752]);
    ("hi_deva", [2357; 2368]);
    ("kn_knda", [3253; 3263]);
    ("ml_mlym", [3381; 3391]);
    ("mr_deva", [2357; 2381; 2361; 2368]);
    ("or_orya", [2861; 2879]);
    ("pa_guru", [2613; 2624]);
    ("sd_arab", [1608; 1610]);
    ("si_sinh", [3520; 3539]);
    ("ta_taml", [2997; 3007]);
    ("te_telu", [3125; 3135]);
    ("ur_arab", [1608; 1740])]);
  (119, [("bn_beng", [2465; 2494; 2476; 2482; 2495; 2441]);
    ("gu_gujr", [2721; 2732; 2765; 2738; 2765; 2735; 2753]);
    ("hi_deva", [2337; 2348; 2381; 2354; 2381; 2351; 2370]);
    ("kn_knda", [3233; 3244; 3277; 3250; 3266]);
    ("ml_mlym", [3361; 3372; 3405; 3378; 3405; 3375; 3393]);
    ("mr_deva", [2337; 2348; 2381; 2354; 2381; 2351; 2370]);
    ("or_orya", [2849; 2860; 2893; 2866; 2881]);
    ("pa_guru", [2593; 2673; 2604; 2610; 2623; 2570]);
    ("sd_arab", [1674; 1576; 1604; 1610; 1608]);
    ("si_sinh", [3497; 3510; 3530; 3517; 3538; 3520; 3530]);
    ("ta_taml", [2975; 2986; 3007; 2995; 3021; 2991; 3010]);
    ("te_telu", [3105; 3116; 3149; 3122; 3149; 3119; 3137]);
    ("ur_arab", [1672; 1576; 1604; 1740; 1608])]);
  (120, [("bn_beng", [2447; 2453; 2509; 2488]);
    ("gu_gujr", [2703; 2709; 2765; 2744]);
    ("hi_deva", [2319; 2325; 2381; 2360]);
    ("kn_knda", [3214; 3221; 3277; 3256; 3277; 8204]);
    ("ml_mlym", [3342; 3349; 3405; 3384; 3405; 8204]);
    ("mr_deva", [2319; 2325; 2381; 2360]);
    ("or_orya", [2831; 2837; 2893; 2872]);
    ("pa_guru", [2576; 2673; 2581; 2616]);
    ("sd_arab", [1575; 1610; 1706; 1587]);
    ("si_sinh", [3473; 3482; 3530; 3523; 3530]);
    ("ta_taml", [2958; 2965; 3021; 3000; 3021]);
    ("te_telu", [3086; 3093; 3149; 3128; 3149; 8204]);
    ("ur_arab", [1575; 1740; 1705; 1587])]);
  (121, [("bn_beng", [2451; 2479; 2492; 2494; 2439]);
    ("gu_gujr", [2741; 2750; 2735]);
    ("hi_deva", [2357; 2366; 2312]);
    ("kn_knda", [3253; 3272]);
    ("ml_mlym", [3381; 3400]);
    ("mr_deva", [2357; 2366; 2351]);
    ("or_orya", [2929; 2878; 2823]);
    ("pa_guru", [2613; 2622; 2568]);
    ("sd_arab", [1608; 1575; 1574; 1610]);
    ("si_sinh", [3520; 3514; 3538]);
    ("ta_taml", [2962; 2991; 3021]);
    ("te_telu", [3125; 3144]);
    ("ur_arab", [1608; 1575; 1574; 1746])]);
  (122, [("bn_beng", [2460; 2503; 2465]);
    ("gu_gujr", [2717; 2759; 2721]);
    ("hi_deva", [2332; 2364; 2375; 2337]);
    ("kn_knda", [3229; 3233; 3277; 8204]);
    ("ml_mlym", [3335; 3384; 3398; 3361; 3405; 8204]);
    ("mr_deva", [2333; 2375; 2337]);
    ("or_orya", [2844; 2887; 2849]);
    ("pa_guru", [2588; 2620; 2632; 2593]);
    ("sd_arab", [1586; 1610; 1674]);
    ("si_sinh", [3523; 3497; 3530]);
    ("ta_taml", [2951; 2972; 2975; 3021]);
    ("te_telu", [3100; 3105; 3149; 8204]);
    ("ur_arab", [1586; 1740; 1672])])].
