(** The characters of general category Mn among those of the Brahmic scripts,
    from Python's unicodedata (char_util.py:62-71).
    Generated by rocq/gen/genmarks.py, do not edit. *)
From Verif Require Import Base.

Definition mn_chars : list N :=
  [784; 1958; 1959; 1960; 1961; 1962; 1963; 1964; 1965; 1966; 1967; 1968;
   2305; 2306; 2362; 2364; 2369; 2370; 2371; 2372; 2373; 2374; 2375; 2376;
   2381; 2386; 2390; 2391; 2402; 2403; 2433; 2492; 2497; 2498; 2499; 2500;
   2509; 2530; 2531; 2561; 2562; 2620; 2625; 2626; 2631; 2632; 2635; 2636;
   2637; 2641; 2672; 2673; 2677; 2689; 2690; 2748; 2753; 2754; 2755; 2756;
   2757; 2759; 2760; 2765; 2786; 2787; 2817; 2876; 2879; 2881; 2882; 2883;
   2884; 2893; 2902; 2914; 2915; 2946; 3008; 3021; 3072; 3134; 3135; 3136;
   3142; 3143; 3144; 3146; 3147; 3148; 3149; 3157; 3158; 3170; 3171; 3201;
   3260; 3263; 3270; 3276; 3277; 3298; 3299; 3329; 3393; 3394; 3395; 3396;
   3405; 3426; 3427; 3530; 3538; 3539; 3540; 3542; 5906; 5907; 5908; 6432;
   6433; 6434; 6439; 6440; 6450; 6457; 6458; 6459; 6679; 6680; 6683; 7212;
   7213; 7214; 7215; 7216; 7217; 7218; 7219; 7222; 7223; 43010; 43014; 43019;
   43045; 43046; 43263; 44005; 44008; 44013; 70712; 70713; 70714; 70715; 70716; 70717;
   70718; 70719; 70722; 70723; 70724; 70726; 70835; 70836; 70837; 70838; 70839; 70840;
   70842; 70847; 70848; 70850; 70851; 71339; 71341; 71344; 71345; 71346; 71347; 71348;
   71349; 71351]%N.

(** [unicodedata.category(c) == 'Mn'] for these characters. *)
Definition is_mark (c : N) : bool := memN c mn_chars.
