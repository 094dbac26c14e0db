(** The component tables of the Brahmic scripts of brahmic/util.py:75-96, from
    nisaba/scripts/brahmic/data/<Script>/*.textproto as combined by BUILD.bazel.
    Generated by rocq/gen/gentables.py, do not edit. *)
From Verif Require Import Base RuleModel VisualModel ScriptData.

Definition data_Beng : script_data := {|
  sd_accept := []%N;
  sd_coda := [([2434], Some [7745]);
     ([2433], Some [109; 784]);
     ([2435], Some [7717]);
     ([2493], Some [8217])]%N;
  sd_consonant := [([2545], Some [118]);
     ([2453; 2492], Some [113]);
     ([2454; 2492], Some [120]);
     ([2460; 2492], Some [122]);
     ([2475; 2492], Some [102]);
     ([2544], Some [633]);
     ([2487], Some [7779]);
     ([2455; 2492], Some [289]);
     ([2465; 2492], Some [7771]);
     ([2466; 2492], Some [7771; 688]);
     ([2479; 2492], Some [7823]);
     ([2480; 8205; 2509; 2479], Some [114; 7929]);
     ([2453], Some [107]);
     ([2454], Some [107; 688]);
     ([2455], Some [103]);
     ([2456], Some [103; 688]);
     ([2457], Some [7749]);
     ([2458], Some [99]);
     ([2459], Some [99; 688]);
     ([2460], Some [106]);
     ([2461], Some [106; 688]);
     ([2462], Some [241]);
     ([2463], Some [7789]);
     ([2464], Some [7789; 688]);
     ([2465], Some [7693]);
     ([2466], Some [7693; 688]);
     ([2467], Some [7751]);
     ([2468], Some [116]);
     ([2469], Some [116; 688]);
     ([2470], Some [100]);
     ([2471], Some [100; 688]);
     ([2472], Some [110]);
     ([2474], Some [112]);
     ([2475], Some [112; 688]);
     ([2476], Some [98]);
     ([2477], Some [98; 688]);
     ([2478], Some [109]);
     ([2479], Some [121]);
     ([2480], Some [114]);
     ([2482], Some [108]);
     ([2486], Some [347]);
     ([2488], Some [115]);
     ([2489], Some [104])]%N;
  sd_dead_consonant := [([2510], Some [116; 11823])]%N;
  sd_inherent_vowel := [([97], None)]%N;
  sd_standalone := []%N;
  sd_subjoined_consonant := []%N;
  sd_virama := [([2509], None)]%N;
  sd_vowel := [([2447], Some [275]);
     ([2451], Some [333]);
     ([2437; 2509; 2479; 2494], Some [230]);
     ([2447; 2509; 2479; 2494], Some [234]);
     ([2437], Some [97]);
     ([2438], Some [257]);
     ([2439], Some [105]);
     ([2440], Some [299]);
     ([2441], Some [117]);
     ([2442], Some [363]);
     ([2443], Some [114; 805]);
     ([2528], Some [114; 805; 772]);
     ([2444], Some [108; 805]);
     ([2529], Some [108; 805; 772]);
     ([2448], Some [97; 105]);
     ([2452], Some [97; 117]);
     ([2438; 2519], Some [259]);
     ([2437; 2519], Some [97; 863; 119]);
     ([2441; 2494], Some [117; 863; 97])]%N;
  sd_vowel_length_sign := []%N;
  sd_vowel_sign := [([2503], Some [275]);
     ([2507], Some [333]);
     ([2494], Some [257]);
     ([2495], Some [105]);
     ([2496], Some [299]);
     ([2497], Some [117]);
     ([2498], Some [363]);
     ([2499], Some [114; 805]);
     ([2500], Some [114; 805; 772]);
     ([2530], Some [108; 805]);
     ([2531], Some [108; 805; 772]);
     ([2504], Some [97; 105]);
     ([2508], Some [97; 117]);
     ([2494; 2492], Some [7841; 772]);
     ([2519], Some [259])]%N;
  sd_nfc := [Rule [2503; 2494] [2507];
     Rule [2503; 2519] [2508];
     Rule [2524] [2465; 2492];
     Rule [2525] [2466; 2492];
     Rule [2527] [2479; 2492]]%N;
  sd_reading_norm := [Rule [2434; 2455] [2457; 2509; 2455];
     Rule [2434; 2458] [2462; 2509; 2458];
     Rule [2434; 2460] [2462; 2509; 2460];
     Rule [2434; 2461] [2462; 2509; 2461];
     Rule [2434; 2463] [2467; 2509; 2463];
     Rule [2434; 2464] [2467; 2509; 2464];
     Rule [2434; 2465] [2467; 2509; 2465];
     Rule [2434; 2468] [2472; 2509; 2468];
     Rule [2434; 2469] [2472; 2509; 2469];
     Rule [2434; 2470] [2472; 2509; 2470];
     Rule [2434; 2471] [2472; 2509; 2471];
     Rule [2434; 2474] [2478; 2509; 2474];
     Rule [2434; 2476] [2478; 2509; 2476];
     Rule [2434; 2477] [2478; 2509; 2477];
     Rule [2433; 2455] [2457; 2509; 2455];
     Rule [2433; 2456] [2457; 2509; 2456];
     Rule [2433; 2464] [2467; 2509; 2464];
     Rule [2433; 2468] [2472; 2509; 2468];
     Rule [2433; 2471] [2472; 2509; 2471];
     Rule [2433; 2476] [2478; 2509; 2476];
     Rule [2433; 2477] [2478; 2509; 2477]]%N;
  sd_visual_rewrite := [Rule [2437; 2494] [2438];
     Rule [2443; 2499] [2528];
     Rule [2444; 2530] [2529];
     Rule [2468; 2509; 8205] [2510];
     Rule [2494; 2503] [2507];
     Rule [2519; 2503] [2508];
     Rule [2480; 8204; 2509; 2479] [2480; 8205; 2509; 2479]]%N;
  sd_preserve := [Preserve [8205; 2509] 1114112; Preserve [2509; 8204] 1114113]%N;
  sd_no_inherent_vowel := false |}.

Definition data_Bugi : script_data := {|
  sd_accept := []%N;
  sd_coda := []%N;
  sd_consonant := [([6656], Some [107]);
     ([6657], Some [103]);
     ([6658], Some [331]);
     ([6659], Some [331; 107]);
     ([6660], Some [112]);
     ([6661], Some [98]);
     ([6662], Some [109]);
     ([6663], Some [109; 112]);
     ([6664], Some [116]);
     ([6665], Some [100]);
     ([6666], Some [110]);
     ([6667], Some [110; 114]);
     ([6668], Some [99]);
     ([6669], Some [106]);
     ([6670], Some [626]);
     ([6671], Some [626; 99]);
     ([6672], Some [121]);
     ([6673], Some [114]);
     ([6674], Some [108]);
     ([6675], Some [119]);
     ([6676], Some [115]);
     ([6678], Some [104])]%N;
  sd_dead_consonant := []%N;
  sd_inherent_vowel := [([97], None)]%N;
  sd_standalone := []%N;
  sd_subjoined_consonant := []%N;
  sd_virama := []%N;
  sd_vowel := [([6677], Some [97]);
     ([6677; 6679], Some [105]);
     ([6677; 6680], Some [117]);
     ([6677; 6681], Some [101]);
     ([6677; 6682], Some [111]);
     ([6677; 6683], Some [230])]%N;
  sd_vowel_length_sign := []%N;
  sd_vowel_sign := [([6679], Some [105]);
     ([6680], Some [117]);
     ([6681], Some [101]);
     ([6682], Some [111]);
     ([6683], Some [230])]%N;
  sd_nfc := []%N;
  sd_reading_norm := []%N;
  sd_visual_rewrite := []%N;
  sd_preserve := []%N;
  sd_no_inherent_vowel := false |}.

Definition data_Deva : script_data := {|
  sd_accept := []%N;
  sd_coda := [([2364], Some [721]);
     ([2306], Some [7745]);
     ([2305], Some [109; 784]);
     ([2307], Some [7717]);
     ([2365], Some [8217])]%N;
  sd_consonant := [([2357], Some [118]);
     ([2325; 2364], Some [113]);
     ([2326; 2364], Some [120]);
     ([2332; 2364], Some [122]);
     ([2347; 2364], Some [102]);
     ([2345], Some [7753]);
     ([2353], Some [114; 774]);
     ([2355], Some [7735]);
     ([2356], Some [7739]);
     ([2359], Some [7779]);
     ([2327; 2364], Some [289]);
     ([2337; 2364], Some [7771]);
     ([2338; 2364], Some [7771; 688]);
     ([2351; 2364], Some [7823]);
     ([2325], Some [107]);
     ([2326], Some [107; 688]);
     ([2327], Some [103]);
     ([2328], Some [103; 688]);
     ([2329], Some [7749]);
     ([2330], Some [99]);
     ([2331], Some [99; 688]);
     ([2332], Some [106]);
     ([2333], Some [106; 688]);
     ([2334], Some [241]);
     ([2335], Some [7789]);
     ([2336], Some [7789; 688]);
     ([2337], Some [7693]);
     ([2338], Some [7693; 688]);
     ([2339], Some [7751]);
     ([2340], Some [116]);
     ([2341], Some [116; 688]);
     ([2342], Some [100]);
     ([2343], Some [100; 688]);
     ([2344], Some [110]);
     ([2346], Some [112]);
     ([2347], Some [112; 688]);
     ([2348], Some [98]);
     ([2349], Some [98; 688]);
     ([2350], Some [109]);
     ([2351], Some [121]);
     ([2352], Some [114]);
     ([2354], Some [108]);
     ([2358], Some [347]);
     ([2360], Some [115]);
     ([2361], Some [104])]%N;
  sd_dead_consonant := []%N;
  sd_inherent_vowel := [([97], None)]%N;
  sd_standalone := [([7413], Some [7830]);
     ([7414], Some [7723]);
     ([2365], Some [8217]);
     ([2384], Some [245; 109])]%N;
  sd_subjoined_consonant := []%N;
  sd_virama := [([2381], None)]%N;
  sd_vowel := [([2319], Some [275]);
     ([2323], Some [333]);
     ([2318], Some [101]);
     ([2317], Some [234]);
     ([2322], Some [111]);
     ([2321], Some [244]);
     ([2418], Some [230]);
     ([2309], Some [97]);
     ([2310], Some [257]);
     ([2311], Some [105]);
     ([2312], Some [299]);
     ([2313], Some [117]);
     ([2314], Some [363]);
     ([2315], Some [114; 805]);
     ([2400], Some [114; 805; 772]);
     ([2316], Some [108; 805]);
     ([2401], Some [108; 805; 772]);
     ([2320], Some [97; 105]);
     ([2324], Some [97; 117])]%N;
  sd_vowel_length_sign := []%N;
  sd_vowel_sign := [([2375], Some [275]);
     ([2379], Some [333]);
     ([2374], Some [101]);
     ([2373], Some [234]);
     ([2378], Some [111]);
     ([2377], Some [244]);
     ([2366], Some [257]);
     ([2367], Some [105]);
     ([2368], Some [299]);
     ([2369], Some [117]);
     ([2370], Some [363]);
     ([2371], Some [114; 805]);
     ([2372], Some [114; 805; 772]);
     ([2402], Some [108; 805]);
     ([2403], Some [108; 805; 772]);
     ([2376], Some [97; 105]);
     ([2380], Some [97; 117])]%N;
  sd_nfc := [Rule [2344; 2364] [2345];
     Rule [2352; 2364] [2353];
     Rule [2355; 2364] [2356];
     Rule [2392] [2325; 2364];
     Rule [2393] [2326; 2364];
     Rule [2394] [2327; 2364];
     Rule [2395] [2332; 2364];
     Rule [2396] [2337; 2364];
     Rule [2397] [2338; 2364];
     Rule [2398] [2347; 2364];
     Rule [2399] [2351; 2364]]%N;
  sd_reading_norm := []%N;
  sd_visual_rewrite := [Rule [2309; 2374] [2308];
     Rule [2309; 2366] [2310];
     Rule [2352; 2381; 2311] [2312];
     Rule [2313; 2369] [2314];
     Rule [2319; 2373] [2317];
     Rule [2319; 2374] [2318];
     Rule [2319; 2375] [2320];
     Rule [2309; 2377] [2321];
     Rule [2310; 2373] [2321];
     Rule [2309; 2378] [2322];
     Rule [2310; 2374] [2322];
     Rule [2309; 2379] [2323];
     Rule [2310; 2375] [2323];
     Rule [2309; 2380] [2324];
     Rule [2310; 2376] [2324];
     Rule [2309; 2373] [2418];
     Rule [2309; 2362] [2419];
     Rule [2309; 2363] [2420];
     Rule [2310; 2362] [2420];
     Rule [2309; 2383] [2421];
     Rule [2309; 2390] [2422];
     Rule [2309; 2391] [2423];
     Rule [2326; 2381; 2366] [2326];
     Rule [2326; 2381; 8205; 2366] [2326];
     Rule [2327; 2381; 2366] [2327];
     Rule [2327; 2381; 8205; 2366] [2327];
     Rule [2328; 2381; 2366] [2328];
     Rule [2328; 2381; 8205; 2366] [2328];
     Rule [2330; 2381; 2366] [2330];
     Rule [2330; 2381; 8205; 2366] [2330];
     Rule [2332; 2381; 2366] [2332];
     Rule [2332; 2381; 8205; 2366] [2332];
     Rule [2333; 2381; 2366] [2333];
     Rule [2333; 2381; 8205; 2366] [2333];
     Rule [2334; 2381; 2366] [2334];
     Rule [2334; 2381; 8205; 2366] [2334];
     Rule [2339; 2381; 2366] [2339];
     Rule [2339; 2381; 8205; 2366] [2339];
     Rule [2340; 2381; 2366] [2340];
     Rule [2340; 2381; 8205; 2366] [2340];
     Rule [2341; 2381; 2366] [2341];
     Rule [2341; 2381; 8205; 2366] [2341];
     Rule [2343; 2381; 2366] [2343];
     Rule [2343; 2381; 8205; 2366] [2343];
     Rule [2344; 2381; 2366] [2344];
     Rule [2344; 2381; 8205; 2366] [2344];
     Rule [2345; 2381; 2366] [2345];
     Rule [2345; 2381; 8205; 2366] [2345];
     Rule [2344; 2364; 2381; 2366] [2345];
     Rule [2344; 2364; 2381; 8205; 2366] [2345];
     Rule [2346; 2381; 2366] [2346];
     Rule [2346; 2381; 8205; 2366] [2346];
     Rule [2348; 2381; 2366] [2348];
     Rule [2348; 2381; 8205; 2366] [2348];
     Rule [2349; 2381; 2366] [2349];
     Rule [2349; 2381; 8205; 2366] [2349];
     Rule [2350; 2381; 2366] [2350];
     Rule [2350; 2381; 8205; 2366] [2350];
     Rule [2351; 2381; 2366] [2351];
     Rule [2351; 2381; 8205; 2366] [2351];
     Rule [2354; 2381; 2366] [2354];
     Rule [2354; 2381; 8205; 2366] [2354];
     Rule [2357; 2381; 2366] [2357];
     Rule [2357; 2381; 8205; 2366] [2357];
     Rule [2358; 2381; 2366] [2358];
     Rule [2358; 2381; 8205; 2366] [2358];
     Rule [2359; 2381; 2366] [2359];
     Rule [2359; 2381; 8205; 2366] [2359];
     Rule [2360; 2381; 2366] [2360];
     Rule [2360; 2381; 8205; 2366] [2360];
     Rule [2393; 2381; 2366] [2393];
     Rule [2393; 2381; 8205; 2366] [2393];
     Rule [2326; 2364; 2381; 2366] [2393];
     Rule [2326; 2364; 2381; 8205; 2366] [2393];
     Rule [2394; 2381; 2366] [2394];
     Rule [2394; 2381; 8205; 2366] [2394];
     Rule [2327; 2364; 2381; 2366] [2394];
     Rule [2327; 2364; 2381; 8205; 2366] [2394];
     Rule [2395; 2381; 2366] [2395];
     Rule [2395; 2381; 8205; 2366] [2395];
     Rule [2332; 2364; 2381; 2366] [2395];
     Rule [2332; 2364; 2381; 8205; 2366] [2395];
     Rule [2399; 2381; 2366] [2399];
     Rule [2399; 2381; 8205; 2366] [2399];
     Rule [2351; 2364; 2381; 2366] [2399];
     Rule [2351; 2364; 2381; 8205; 2366] [2399];
     Rule [2425; 2381; 2366] [2425];
     Rule [2425; 2381; 8205; 2366] [2425];
     Rule [2426; 2381; 2366] [2426];
     Rule [2426; 2381; 8205; 2366] [2426];
     Rule [2427; 2381; 2366] [2427];
     Rule [2427; 2381; 8205; 2366] [2427];
     Rule [2428; 2381; 2366] [2428];
     Rule [2428; 2381; 8205; 2366] [2428];
     Rule [2430; 2381; 2366] [2430];
     Rule [2430; 2381; 8205; 2366] [2430];
     Rule [2431; 2381; 2366] [2431];
     Rule [2431; 2381; 8205; 2366] [2431];
     Rule [2325; 2381; 2330; 2381; 2366] [2325; 2381; 2330];
     Rule [2325; 2381; 2330; 2381; 8205; 2366] [2325; 2381; 2330];
     Rule [2325; 2381; 2359; 2381; 2366] [2325; 2381; 2359];
     Rule [2325; 2381; 2359; 2381; 8205; 2366] [2325; 2381; 2359];
     Rule [2340; 2381; 2340; 2381; 2366] [2340; 2381; 2340];
     Rule [2340; 2381; 2340; 2381; 8205; 2366] [2340; 2381; 2340];
     Rule [2344; 2381; 2340; 2381; 2366] [2344; 2381; 2340];
     Rule [2344; 2381; 2340; 2381; 8205; 2366] [2344; 2381; 2340];
     Rule [2352; 2381; 2315] [2352; 2371];
     Rule [2352; 2381; 2400] [2352; 2372];
     Rule [2352; 2381; 2316] [2352; 2402];
     Rule [2352; 2381; 2401] [2352; 2403];
     Rule [2352; 2381; 8205] [2353; 2381];
     Rule [2309; 2375] [2308];
     Rule [2309; 8205; 2362] [2419];
     Rule [2309; 8205; 2373] [2418];
     Rule [2309; 8205; 2374] [2308];
     Rule [2309; 8205; 2390] [2422];
     Rule [2309; 8205; 2391] [2423];
     Rule [2309; 8205; 2366] [2310];
     Rule [2418; 2306] [2309; 2305];
     Rule [2418; 2305] [2309; 2305];
     Rule [2309; 2373; 2306] [2309; 2305];
     Rule [2309; 2373; 2305] [2309; 2305];
     Rule [2309; 2366; 2373] [2321];
     Rule [2309; 2366; 2374] [2322];
     Rule [2309; 2366; 2375] [2323];
     Rule [2309; 2366; 2376] [2324];
     Rule [2309; 2366; 2362] [2420];
     Rule [2309; 2366; 43263] [2421];
     Rule [2321; 2306] [2310; 2305];
     Rule [2321; 2305] [2310; 2305];
     Rule [2309; 2377; 2306] [2310; 2305];
     Rule [2309; 2377; 2305] [2310; 2305];
     Rule [2310; 2373; 2306] [2310; 2305];
     Rule [2310; 2373; 2305] [2310; 2305];
     Rule [2309; 2366; 2373; 2306] [2310; 2305];
     Rule [2309; 2366; 2373; 2305] [2310; 2305];
     Rule [2310; 43263] [2421];
     Rule [2319; 43263] [43262];
     Rule [2317; 2306] [2319; 2305];
     Rule [2317; 2305] [2319; 2305];
     Rule [2319; 2373; 2306] [2319; 2305];
     Rule [2319; 2373; 2305] [2319; 2305];
     Rule [784] [2305];
     Rule [2373; 2306] [2305];
     Rule [2373; 2305] [2305];
     Rule [2377; 2306] [2366; 2305];
     Rule [2377; 2305] [2366; 2305];
     Rule [2366; 2373; 2306] [2366; 2305];
     Rule [2366; 2373; 2305] [2366; 2305];
     Rule [2366; 2373] [2377];
     Rule [2366; 2374] [2378];
     Rule [2366; 2375] [2379];
     Rule [2366; 2376] [2380];
     Rule [2366; 2362] [2363];
     Rule [2366; 43263] [2383];
     Rule [2373; 2366] [2377];
     Rule [2374; 2366] [2378];
     Rule [2375; 2366] [2379];
     Rule [2376; 2366] [2380];
     Rule [2362; 2366] [2363];
     Rule [43263; 2366] [2383];
     Rule [2381; 2364] [2364; 2381];
     Rule [2306; 2373] [2305];
     Rule [2306; 2374] [2374; 2306];
     Rule [2306; 2375] [2375; 2306];
     Rule [2306; 2376] [2376; 2306];
     Rule [2306; 2362] [2362; 2306];
     Rule [2306; 43263] [43263; 2306];
     Rule [2327; 2386] [2427];
     Rule [2332; 2386] [2428];
     Rule [2337; 2386] [2430];
     Rule [2348; 2386] [2431];
     Rule [2375; 2367] [2367];
     Rule [2375; 2373] [2373];
     Rule [2375; 2376] [2376];
     Rule [2324; 2375] [2324];
     Rule [2317; 2373] [2317];
     Rule [2318; 2374] [2318];
     Rule [2320; 2375] [2320];
     Rule [43262; 43263] [43262];
     Rule [2377; 2373] [2377];
     Rule [2378; 2374] [2378];
     Rule [2379; 2375] [2379];
     Rule [2380; 2376] [2380];
     Rule [2363; 2362] [2363];
     Rule [2383; 43263] [2383];
     Rule [2321; 2373] [2321];
     Rule [2322; 2374] [2322];
     Rule [2323; 2375] [2323];
     Rule [2324; 2376] [2324];
     Rule [2420; 2362] [2420];
     Rule [2421; 43263] [2421];
     Rule [2345; 2364] [2345];
     Rule [2353; 2364] [2353];
     Rule [2356; 2364] [2356]]%N;
  sd_preserve := [Preserve [2381; 8204] 1114113]%N;
  sd_no_inherent_vowel := false |}.

Definition data_Gujr : script_data := {|
  sd_accept := []%N;
  sd_coda := [([2689], Some [109; 784]);
     ([2748], Some [721]);
     ([2690], Some [7745]);
     ([2689], Some [109; 784]);
     ([2691], Some [7717]);
     ([2749], Some [8217])]%N;
  sd_consonant := [([2741], Some [118]);
     ([2709; 2748], Some [113]);
     ([2710; 2748], Some [120]);
     ([2716; 2748], Some [122]);
     ([2731; 2748], Some [102]);
     ([2739], Some [7735]);
     ([2743], Some [7779]);
     ([2711; 2748], Some [289]);
     ([2709], Some [107]);
     ([2710], Some [107; 688]);
     ([2711], Some [103]);
     ([2712], Some [103; 688]);
     ([2713], Some [7749]);
     ([2714], Some [99]);
     ([2715], Some [99; 688]);
     ([2716], Some [106]);
     ([2717], Some [106; 688]);
     ([2718], Some [241]);
     ([2719], Some [7789]);
     ([2720], Some [7789; 688]);
     ([2721], Some [7693]);
     ([2722], Some [7693; 688]);
     ([2723], Some [7751]);
     ([2724], Some [116]);
     ([2725], Some [116; 688]);
     ([2726], Some [100]);
     ([2727], Some [100; 688]);
     ([2728], Some [110]);
     ([2730], Some [112]);
     ([2731], Some [112; 688]);
     ([2732], Some [98]);
     ([2733], Some [98; 688]);
     ([2734], Some [109]);
     ([2735], Some [121]);
     ([2736], Some [114]);
     ([2738], Some [108]);
     ([2742], Some [347]);
     ([2744], Some [115]);
     ([2745], Some [104])]%N;
  sd_dead_consonant := []%N;
  sd_inherent_vowel := [([97], None)]%N;
  sd_standalone := [([2768], Some [245; 109])]%N;
  sd_subjoined_consonant := []%N;
  sd_virama := [([2765], None)]%N;
  sd_vowel := [([2703], Some [275]);
     ([2707], Some [333]);
     ([2701], Some [234]);
     ([2705], Some [244]);
     ([2693], Some [97]);
     ([2694], Some [257]);
     ([2695], Some [105]);
     ([2696], Some [299]);
     ([2697], Some [117]);
     ([2698], Some [363]);
     ([2699], Some [114; 805]);
     ([2784], Some [114; 805; 772]);
     ([2700], Some [108; 805]);
     ([2785], Some [108; 805; 772]);
     ([2704], Some [97; 105]);
     ([2708], Some [97; 117])]%N;
  sd_vowel_length_sign := []%N;
  sd_vowel_sign := [([2759], Some [275]);
     ([2763], Some [333]);
     ([2757], Some [234]);
     ([2761], Some [244]);
     ([2750], Some [257]);
     ([2751], Some [105]);
     ([2752], Some [299]);
     ([2753], Some [117]);
     ([2754], Some [363]);
     ([2755], Some [114; 805]);
     ([2756], Some [114; 805; 772]);
     ([2786], Some [108; 805]);
     ([2787], Some [108; 805; 772]);
     ([2760], Some [97; 105]);
     ([2764], Some [97; 117])]%N;
  sd_nfc := []%N;
  sd_reading_norm := []%N;
  sd_visual_rewrite := [Rule [2693; 2750] [2694];
     Rule [2693; 2757] [2701];
     Rule [2693; 2759] [2703];
     Rule [2693; 2760] [2704];
     Rule [2693; 2761] [2705];
     Rule [2693; 2763] [2707];
     Rule [2693; 2750; 2759] [2707];
     Rule [2693; 2764] [2708];
     Rule [2693; 2750; 2760] [2708];
     Rule [2757; 2750] [2761];
     Rule [2693; 2750; 2757] [2705];
     Rule [2760; 2759] [2760];
     Rule [2761; 2757] [2761];
     Rule [2763; 2759] [2763];
     Rule [2764; 2759] [2764];
     Rule [2764; 2760] [2764];
     Rule [2751; 2759] [2751];
     Rule [2704; 2759] [2704];
     Rule [2707; 2759] [2707];
     Rule [2708; 2759] [2708];
     Rule [2704; 2760] [2704];
     Rule [2708; 2760] [2708]]%N;
  sd_preserve := [Preserve [2765; 8204] 1114113]%N;
  sd_no_inherent_vowel := false |}.

Definition data_Guru : script_data := {|
  sd_accept := []%N;
  sd_coda := [([2562], Some [7745]);
     ([2672], Some [7747]);
     ([2561], Some [109; 784]);
     ([2563], Some [7717]);
     ([2673], Some [726]);
     ([2641], Some [8341]);
     ([2677], Some [121; 774])]%N;
  sd_consonant := [([2613], Some [118]);
     ([2581; 2620], Some [113]);
     ([2582; 2620], Some [120]);
     ([2588; 2620], Some [122]);
     ([2603; 2620], Some [102]);
     ([2652], Some [7771]);
     ([2583; 2620], Some [289]);
     ([2610; 2620], Some [7735]);
     ([2616; 2620], Some [347]);
     ([2581], Some [107]);
     ([2582], Some [107; 688]);
     ([2583], Some [103]);
     ([2584], Some [103; 688]);
     ([2585], Some [7749]);
     ([2586], Some [99]);
     ([2587], Some [99; 688]);
     ([2588], Some [106]);
     ([2589], Some [106; 688]);
     ([2590], Some [241]);
     ([2591], Some [7789]);
     ([2592], Some [7789; 688]);
     ([2593], Some [7693]);
     ([2594], Some [7693; 688]);
     ([2595], Some [7751]);
     ([2596], Some [116]);
     ([2597], Some [116; 688]);
     ([2598], Some [100]);
     ([2599], Some [100; 688]);
     ([2600], Some [110]);
     ([2602], Some [112]);
     ([2603], Some [112; 688]);
     ([2604], Some [98]);
     ([2605], Some [98; 688]);
     ([2606], Some [109]);
     ([2607], Some [121]);
     ([2608], Some [114]);
     ([2610], Some [108]);
     ([2614], Some [347]);
     ([2616], Some [115]);
     ([2617], Some [104])]%N;
  sd_dead_consonant := []%N;
  sd_inherent_vowel := [([97], None)]%N;
  sd_standalone := []%N;
  sd_subjoined_consonant := []%N;
  sd_virama := [([2637], None)]%N;
  sd_vowel := [([2565], Some [97]);
     ([2566], Some [257]);
     ([2674], Some [464]);
     ([2567], Some [105]);
     ([2568], Some [299]);
     ([2675], Some [468]);
     ([2569], Some [117]);
     ([2570], Some [363]);
     ([2575], Some [275]);
     ([2576], Some [97; 105]);
     ([2579], Some [333]);
     ([2580], Some [97; 117])]%N;
  sd_vowel_length_sign := []%N;
  sd_vowel_sign := [([2622], Some [257]);
     ([2623], Some [105]);
     ([2624], Some [299]);
     ([2625], Some [117]);
     ([2626], Some [363]);
     ([2631], Some [275]);
     ([2632], Some [97; 105]);
     ([2635], Some [333]);
     ([2636], Some [97; 117])]%N;
  sd_nfc := [Rule [2611] [2610; 2620];
     Rule [2614] [2616; 2620];
     Rule [2649] [2582; 2620];
     Rule [2650] [2583; 2620];
     Rule [2651] [2588; 2620];
     Rule [2654] [2603; 2620]]%N;
  sd_reading_norm := []%N;
  sd_visual_rewrite := [Rule [2565; 2622] [2566];
     Rule [2674; 2623] [2567];
     Rule [2674; 2624] [2568];
     Rule [2675; 2625] [2569];
     Rule [2675; 2626] [2570];
     Rule [2674; 2631] [2575];
     Rule [2565; 2632] [2576];
     Rule [2675; 2635] [2579];
     Rule [2565; 2636] [2580]]%N;
  sd_preserve := [Preserve [2637; 8204] 1114113]%N;
  sd_no_inherent_vowel := false |}.

Definition data_Knda : script_data := {|
  sd_accept := []%N;
  sd_coda := [([3202], Some [7745]);
     ([3201], Some [109; 784]);
     ([3203], Some [7717]);
     ([3261], Some [8217])]%N;
  sd_consonant := [([3253], Some [118]);
     ([3228; 3260], Some [122]);
     ([3243; 3260], Some [102]);
     ([3294], Some [7739]);
     ([3249], Some [7775]);
     ([3251], Some [7735]);
     ([3255], Some [7779]);
     ([3248; 8205; 3277; 3247], Some [114; 7929]);
     ([3221], Some [107]);
     ([3222], Some [107; 688]);
     ([3223], Some [103]);
     ([3224], Some [103; 688]);
     ([3225], Some [7749]);
     ([3226], Some [99]);
     ([3227], Some [99; 688]);
     ([3228], Some [106]);
     ([3229], Some [106; 688]);
     ([3230], Some [241]);
     ([3231], Some [7789]);
     ([3232], Some [7789; 688]);
     ([3233], Some [7693]);
     ([3234], Some [7693; 688]);
     ([3235], Some [7751]);
     ([3236], Some [116]);
     ([3237], Some [116; 688]);
     ([3238], Some [100]);
     ([3239], Some [100; 688]);
     ([3240], Some [110]);
     ([3242], Some [112]);
     ([3243], Some [112; 688]);
     ([3244], Some [98]);
     ([3245], Some [98; 688]);
     ([3246], Some [109]);
     ([3247], Some [121]);
     ([3248], Some [114]);
     ([3250], Some [108]);
     ([3254], Some [347]);
     ([3256], Some [115]);
     ([3257], Some [104])]%N;
  sd_dead_consonant := []%N;
  sd_inherent_vowel := [([97], None)]%N;
  sd_standalone := [([3313], Some [7830]);
     ([3314], Some [7723])]%N;
  sd_subjoined_consonant := []%N;
  sd_virama := [([3277], None)]%N;
  sd_vowel := [([3206; 3277; 3247], Some [230]);
     ([3214], Some [101]);
     ([3218], Some [111]);
     ([3215], Some [275]);
     ([3219], Some [333]);
     ([3205], Some [97]);
     ([3206], Some [257]);
     ([3207], Some [105]);
     ([3208], Some [299]);
     ([3209], Some [117]);
     ([3210], Some [363]);
     ([3211], Some [114; 805]);
     ([3296], Some [114; 805; 772]);
     ([3212], Some [108; 805]);
     ([3297], Some [108; 805; 772]);
     ([3216], Some [97; 105]);
     ([3220], Some [97; 117])]%N;
  sd_vowel_length_sign := []%N;
  sd_vowel_sign := [([3270], Some [101]);
     ([3274], Some [111]);
     ([3271], Some [275]);
     ([3275], Some [333]);
     ([3262], Some [257]);
     ([3263], Some [105]);
     ([3264], Some [299]);
     ([3265], Some [117]);
     ([3266], Some [363]);
     ([3267], Some [114; 805]);
     ([3268], Some [114; 805; 772]);
     ([3298], Some [108; 805]);
     ([3299], Some [108; 805; 772]);
     ([3272], Some [97; 105]);
     ([3276], Some [97; 117])]%N;
  sd_nfc := [Rule [3263; 3285] [3264];
     Rule [3270; 3285] [3271];
     Rule [3270; 3286] [3272];
     Rule [3270; 3266] [3274];
     Rule [3274; 3285] [3275];
     Rule [3270; 3266; 3285] [3275]]%N;
  sd_reading_norm := []%N;
  sd_visual_rewrite := [Rule [3209; 3262] [3210];
     Rule [3218; 3276] [3220];
     Rule [3211; 3262] [3296];
     Rule [3253; 3263; 3265] [3246; 3263];
     Rule [3253; 3270; 3265] [3246; 3270];
     Rule [3253; 3270; 3265; 3285] [3246; 3271];
     Rule [3253; 3270; 3265; 3286] [3246; 3272];
     Rule [3262; 3260] [3260; 3262];
     Rule [3263; 3260] [3260; 3263];
     Rule [3264; 3260] [3260; 3264];
     Rule [3265; 3260] [3260; 3265];
     Rule [3266; 3260] [3260; 3266];
     Rule [3267; 3260] [3260; 3267];
     Rule [3268; 3260] [3260; 3264];
     Rule [3270; 3260] [3260; 3264];
     Rule [3271; 3260] [3260; 3264];
     Rule [3272; 3260] [3260; 3264];
     Rule [3274; 3260] [3260; 3264];
     Rule [3275; 3260] [3260; 3264];
     Rule [3276; 3260] [3260; 3264];
     Rule [3285; 3263] [3264];
     Rule [3285; 3270] [3271];
     Rule [3286; 3270] [3272];
     Rule [3285; 3274] [3275];
     Rule [3271; 3266] [3275]]%N;
  sd_preserve := [Preserve [8205; 3277] 1114112; Preserve [3277; 8204] 1114113]%N;
  sd_no_inherent_vowel := false |}.

Definition data_Lepc : script_data := {|
  sd_accept := []%N;
  sd_coda := []%N;
  sd_consonant := [([7168], Some [107]);
     ([7169], Some [107; 737]);
     ([7170], Some [107; 688]);
     ([7171], Some [103]);
     ([7172], Some [103; 737]);
     ([7173], Some [7749]);
     ([7174], Some [99]);
     ([7175], Some [99; 688]);
     ([7176], Some [106]);
     ([7177], Some [241]);
     ([7178], Some [116]);
     ([7179], Some [116; 688]);
     ([7180], Some [100]);
     ([7181], Some [110]);
     ([7182], Some [112]);
     ([7183], Some [112; 737]);
     ([7184], Some [112; 688]);
     ([7185], Some [102]);
     ([7186], Some [102; 737]);
     ([7187], Some [98]);
     ([7188], Some [98; 737]);
     ([7189], Some [109]);
     ([7190], Some [109; 737]);
     ([7191], Some [116; 865; 115]);
     ([7192], Some [116; 865; 115; 688]);
     ([7193], Some [122]);
     ([7194], Some [121]);
     ([7195], Some [114]);
     ([7196], Some [108]);
     ([7197], Some [104]);
     ([7198], Some [104; 737]);
     ([7199], Some [118]);
     ([7200], Some [115]);
     ([7201], Some [347]);
     ([7202], Some [119]);
     ([7245], Some [7789]);
     ([7246], Some [7789; 688]);
     ([7247], Some [7693]);
     ([7168; 7223; 7205], Some [107; 803; 691]);
     ([7197; 7223; 7205], Some [104; 803; 691]);
     ([7171; 7223; 7205], Some [103; 803; 691]);
     ([7203; 7204], Some [97; 563])]%N;
  sd_dead_consonant := [([7213], Some [107; 96]);
     ([7214], Some [109; 96]);
     ([7215], Some [108; 96]);
     ([7216], Some [110; 96]);
     ([7217], Some [112; 96]);
     ([7218], Some [114; 96]);
     ([7219], Some [116; 96]);
     ([7220], Some [110; 778]);
     ([7221], Some [7749; 803])]%N;
  sd_inherent_vowel := [([97], None)]%N;
  sd_standalone := []%N;
  sd_subjoined_consonant := [([7204], Some [7925]);
     ([7205], Some [7771]);
     ([7205; 7204], Some [7771; 7925])]%N;
  sd_virama := []%N;
  sd_vowel := [([7203], Some [97]);
     ([7203; 7206], Some [257]);
     ([7203; 7207], Some [105]);
     ([7203; 7208], Some [111]);
     ([7203; 7209], Some [333]);
     ([7203; 7210], Some [117]);
     ([7203; 7211], Some [363]);
     ([7203; 7212], Some [101])]%N;
  sd_vowel_length_sign := [([7222], Some [39])]%N;
  sd_vowel_sign := [([7206], Some [257]);
     ([7207], Some [105]);
     ([7208], Some [111]);
     ([7209], Some [333]);
     ([7210], Some [117]);
     ([7211], Some [363]);
     ([7212], Some [101])]%N;
  sd_nfc := []%N;
  sd_reading_norm := [Rule [7168; 7223; 7205] [7245];
     Rule [7197; 7223; 7205] [7246];
     Rule [7171; 7223; 7205] [7247]]%N;
  sd_visual_rewrite := []%N;
  sd_preserve := []%N;
  sd_no_inherent_vowel := false |}.

Definition data_Limb : script_data := {|
  sd_accept := []%N;
  sd_coda := [([6457], Some [7717]);
     ([6450], Some [7745])]%N;
  sd_consonant := [([6401], Some [107]);
     ([6402], Some [107; 688]);
     ([6403], Some [103]);
     ([6404], Some [103; 688]);
     ([6405], Some [7749]);
     ([6406], Some [99]);
     ([6407], Some [99; 688]);
     ([6408], Some [106]);
     ([6409], Some [106; 688]);
     ([6411], Some [116]);
     ([6412], Some [116; 688]);
     ([6413], Some [100]);
     ([6414], Some [100; 688]);
     ([6415], Some [110]);
     ([6416], Some [112]);
     ([6417], Some [112; 688]);
     ([6418], Some [98]);
     ([6419], Some [98; 688]);
     ([6420], Some [109]);
     ([6421], Some [121]);
     ([6422], Some [114]);
     ([6423], Some [108]);
     ([6424], Some [119]);
     ([6425], Some [347]);
     ([6426], Some [7779]);
     ([6427], Some [115]);
     ([6428], Some [104]);
     ([6410], Some [626]);
     ([6429], Some [106; 241]);
     ([6430], Some [7789; 114])]%N;
  sd_dead_consonant := [([6448], Some [7731]);
     ([6449], Some [7749; 803]);
     ([6451], Some [357]);
     ([6452], Some [7751]);
     ([6453], Some [7765]);
     ([6454], Some [7747]);
     ([6455], Some [341]);
     ([6456], Some [7735])]%N;
  sd_inherent_vowel := [([97], None)]%N;
  sd_standalone := []%N;
  sd_subjoined_consonant := [([6441], Some [7925]);
     ([6442], Some [7771]);
     ([6443], Some [7817])]%N;
  sd_virama := [([6459], None)]%N;
  sd_vowel := [([6400], Some [97]);
     ([6400; 6432], Some [257]);
     ([6400; 6433], Some [105]);
     ([6400; 6434], Some [117]);
     ([6400; 6435], Some [275]);
     ([6400; 6436], Some [97; 105]);
     ([6400; 6437], Some [333]);
     ([6400; 6438], Some [97; 117]);
     ([6400; 6439], Some [101]);
     ([6400; 6440], Some [111])]%N;
  sd_vowel_length_sign := [([6458], Some [39])]%N;
  sd_vowel_sign := [([6432], Some [257]);
     ([6433], Some [105]);
     ([6434], Some [117]);
     ([6435], Some [275]);
     ([6436], Some [97; 105]);
     ([6437], Some [333]);
     ([6438], Some [97; 117]);
     ([6439], Some [101]);
     ([6440], Some [111])]%N;
  sd_nfc := []%N;
  sd_reading_norm := []%N;
  sd_visual_rewrite := []%N;
  sd_preserve := []%N;
  sd_no_inherent_vowel := false |}.

Definition data_Mlym : script_data := {|
  sd_accept := [([3451; 3405], None);
     ([3451; 3398], None);
     ([3451; 3399], None);
     ([3393; 3405], None);
     ([3333; 3405], None);
     ([3390; 3330], None);
     ([3453], None)]%N;
  sd_coda := [([3406], Some [114; 11823]);
     ([3330], Some [7745]);
     ([3329], Some [109; 784]);
     ([3331], Some [7717]);
     ([3389], Some [8217])]%N;
  sd_consonant := [([3381], Some [118]);
     ([3386], Some [7791]);
     ([3369], Some [7753]);
     ([3377], Some [7775]);
     ([3379], Some [7735]);
     ([3380], Some [7739]);
     ([3383], Some [7779]);
     ([3349], Some [107]);
     ([3350], Some [107; 688]);
     ([3351], Some [103]);
     ([3352], Some [103; 688]);
     ([3353], Some [7749]);
     ([3354], Some [99]);
     ([3355], Some [99; 688]);
     ([3356], Some [106]);
     ([3357], Some [106; 688]);
     ([3358], Some [241]);
     ([3359], Some [7789]);
     ([3360], Some [7789; 688]);
     ([3361], Some [7693]);
     ([3362], Some [7693; 688]);
     ([3363], Some [7751]);
     ([3364], Some [116]);
     ([3365], Some [116; 688]);
     ([3366], Some [100]);
     ([3367], Some [100; 688]);
     ([3368], Some [110]);
     ([3370], Some [112]);
     ([3371], Some [112; 688]);
     ([3372], Some [98]);
     ([3373], Some [98; 688]);
     ([3374], Some [109]);
     ([3375], Some [121]);
     ([3376], Some [114]);
     ([3378], Some [108]);
     ([3382], Some [347]);
     ([3384], Some [115]);
     ([3385], Some [104])]%N;
  sd_dead_consonant := [([3455], Some [107; 11823]);
     ([3450], Some [7751; 11823]);
     ([3451], Some [110; 11823]);
     ([3452], Some [7775; 11823]);
     ([3453], Some [108; 11823]);
     ([3454], Some [7735; 11823])]%N;
  sd_inherent_vowel := [([97], None)]%N;
  sd_standalone := []%N;
  sd_subjoined_consonant := []%N;
  sd_virama := [([3405], None)]%N;
  sd_vowel := [([3342], Some [101]);
     ([3346], Some [111]);
     ([3343], Some [275]);
     ([3347], Some [333]);
     ([3333], Some [97]);
     ([3334], Some [257]);
     ([3335], Some [105]);
     ([3336], Some [299]);
     ([3337], Some [117]);
     ([3338], Some [363]);
     ([3339], Some [114; 805]);
     ([3424], Some [114; 805; 772]);
     ([3340], Some [108; 805]);
     ([3425], Some [108; 805; 772]);
     ([3344], Some [97; 105]);
     ([3348], Some [97; 117])]%N;
  sd_vowel_length_sign := []%N;
  sd_vowel_sign := [([3390], Some [257]);
     ([3391], Some [105]);
     ([3392], Some [299]);
     ([3393], Some [117]);
     ([3394], Some [363]);
     ([3398], Some [101]);
     ([3399], Some [275]);
     ([3402], Some [111]);
     ([3403], Some [333]);
     ([3400], Some [97; 105]);
     ([3415], Some [97; 117]);
     ([3404], Some [97; 117; 815]);
     ([3395], Some [114; 805]);
     ([3396], Some [114; 805; 772]);
     ([3426], Some [108; 805]);
     ([3427], Some [108; 805; 772])]%N;
  sd_nfc := [Rule [3398; 3390] [3402];
     Rule [3399; 3390] [3403];
     Rule [3398; 3415] [3404]]%N;
  sd_reading_norm := [Rule [3404] [3415];
     Rule [3393; 3405] [3405];
     Rule [3406; 3375; 3405; 3375] [3376; 3405; 3375];
     Rule [3406] [3452]]%N;
  sd_visual_rewrite := [Rule [3335; 3415] [3336];
     Rule [3337; 3415] [3338];
     Rule [3342; 3398] [3344];
     Rule [3346; 3390] [3347];
     Rule [3346; 3415] [3348];
     Rule [3363; 3405; 8205] [3450];
     Rule [3368; 3405; 8205] [3451];
     Rule [3376; 3405; 8205] [3452];
     Rule [3378; 3405; 8205] [3453];
     Rule [3379; 3405; 8205] [3454];
     Rule [3349; 3405; 8205] [3455];
     Rule [3368; 3405; 3377] [3451; 3405; 3377];
     Rule [3368; 3405; 8205; 3377] [3451; 3405; 3377];
     Rule [3398; 3398] [3400];
     Rule [3390; 3398] [3402];
     Rule [3390; 3399] [3403];
     Rule [3415; 3398] [3404]]%N;
  sd_preserve := [Preserve [3405; 8204] 1114113]%N;
  sd_no_inherent_vowel := false |}.

Definition data_Mtei : script_data := {|
  sd_accept := [([44012], None)]%N;
  sd_coda := [([44010], Some [7745]);
     ([44012], Some [94])]%N;
  sd_consonant := [([43968], Some [107]);
     ([43969], Some [115]);
     ([43970], Some [108]);
     ([43971], Some [109]);
     ([43972], Some [112]);
     ([43973], Some [110]);
     ([43974], Some [99; 688]);
     ([43975], Some [116]);
     ([43976], Some [107; 688]);
     ([43977], Some [7749]);
     ([43978], Some [116; 688]);
     ([43979], Some [119]);
     ([43980], Some [121]);
     ([43981], Some [104]);
     ([43984], Some [112; 688]);
     ([43986], Some [103]);
     ([43987], Some [106; 688]);
     ([43988], Some [114]);
     ([43989], Some [98]);
     ([43990], Some [106]);
     ([43991], Some [100]);
     ([43992], Some [103; 688]);
     ([43993], Some [100; 688]);
     ([43994], Some [98; 688])]%N;
  sd_dead_consonant := [([43995], Some [107; 11823]);
     ([43996], Some [108; 11823]);
     ([43997], Some [109; 11823]);
     ([43998], Some [112; 11823]);
     ([43999], Some [110; 11823]);
     ([44000], Some [116; 11823]);
     ([44001], Some [7749; 11823]);
     ([44002], Some [105; 11823])]%N;
  sd_inherent_vowel := [([97], None)]%N;
  sd_standalone := [([43762], Some [245; 109])]%N;
  sd_subjoined_consonant := []%N;
  sd_virama := [([44013], None)]%N;
  sd_vowel := [([43982], Some [117]);
     ([43983], Some [105]);
     ([43985], Some [97]);
     ([43985; 44005], Some [257]);
     ([43985; 44004], Some [299]);
     ([43985; 44008], Some [363]);
     ([43985; 44006], Some [275]);
     ([43985; 44003], Some [333]);
     ([43985; 44009], Some [97; 105]);
     ([43985; 44007], Some [97; 117])]%N;
  sd_vowel_length_sign := []%N;
  sd_vowel_sign := [([44005], Some [257]);
     ([44004], Some [299]);
     ([44008], Some [363]);
     ([44006], Some [275]);
     ([44003], Some [333]);
     ([44009], Some [97; 105]);
     ([44007], Some [97; 117])]%N;
  sd_nfc := []%N;
  sd_reading_norm := []%N;
  sd_visual_rewrite := []%N;
  sd_preserve := []%N;
  sd_no_inherent_vowel := false |}.

Definition data_Newa : script_data := {|
  sd_accept := []%N;
  sd_coda := [([70723], Some [109; 784]);
     ([70728], Some [7745; 803]);
     ([70726], Some [721]);
     ([70724], Some [7745]);
     ([70723], Some [109; 784]);
     ([70725], Some [7717]);
     ([70727], Some [8217])]%N;
  sd_consonant := [([70675], Some [7749; 688]);
     ([70681], Some [241; 688]);
     ([70692], Some [110; 688]);
     ([70698], Some [109; 688]);
     ([70701], Some [114; 688]);
     ([70703], Some [108; 688]);
     ([70704], Some [119]);
     ([70706], Some [7779]);
     ([70670], Some [107]);
     ([70671], Some [107; 688]);
     ([70672], Some [103]);
     ([70673], Some [103; 688]);
     ([70674], Some [7749]);
     ([70676], Some [99]);
     ([70677], Some [99; 688]);
     ([70678], Some [106]);
     ([70679], Some [106; 688]);
     ([70680], Some [241]);
     ([70682], Some [7789]);
     ([70683], Some [7789; 688]);
     ([70684], Some [7693]);
     ([70685], Some [7693; 688]);
     ([70686], Some [7751]);
     ([70687], Some [116]);
     ([70688], Some [116; 688]);
     ([70689], Some [100]);
     ([70690], Some [100; 688]);
     ([70691], Some [110]);
     ([70693], Some [112]);
     ([70694], Some [112; 688]);
     ([70695], Some [98]);
     ([70696], Some [98; 688]);
     ([70697], Some [109]);
     ([70699], Some [121]);
     ([70700], Some [114]);
     ([70702], Some [108]);
     ([70705], Some [347]);
     ([70707], Some [115]);
     ([70708], Some [104])]%N;
  sd_dead_consonant := []%N;
  sd_inherent_vowel := [([97], None)]%N;
  sd_standalone := [([70729], Some [245; 109])]%N;
  sd_subjoined_consonant := []%N;
  sd_virama := [([70722], None)]%N;
  sd_vowel := [([70666], Some [275]);
     ([70668], Some [333]);
     ([70656], Some [97]);
     ([70657], Some [257]);
     ([70658], Some [105]);
     ([70659], Some [299]);
     ([70660], Some [117]);
     ([70661], Some [363]);
     ([70662], Some [114; 805]);
     ([70663], Some [114; 805; 772]);
     ([70664], Some [108; 805]);
     ([70665], Some [108; 805; 772]);
     ([70667], Some [97; 105]);
     ([70669], Some [97; 117])]%N;
  sd_vowel_length_sign := []%N;
  sd_vowel_sign := [([70718], Some [275]);
     ([70720], Some [333]);
     ([70709], Some [257]);
     ([70710], Some [105]);
     ([70711], Some [299]);
     ([70712], Some [117]);
     ([70713], Some [363]);
     ([70714], Some [114; 805]);
     ([70715], Some [114; 805; 772]);
     ([70716], Some [108; 805]);
     ([70717], Some [108; 805; 772]);
     ([70719], Some [97; 105]);
     ([70721], Some [97; 117])]%N;
  sd_nfc := []%N;
  sd_reading_norm := []%N;
  sd_visual_rewrite := [Rule [70656; 70709] [70657];
     Rule [70660; 70720] [70668];
     Rule [70718; 70709] [70720]]%N;
  sd_preserve := [Preserve [70722; 8204] 1114113]%N;
  sd_no_inherent_vowel := false |}.

Definition data_Orya : script_data := {|
  sd_accept := []%N;
  sd_coda := [([2817], Some [109; 784]);
     ([2876], Some [721]);
     ([2818], Some [7745]);
     ([2817], Some [109; 784]);
     ([2819], Some [7717]);
     ([2877], Some [8217])]%N;
  sd_consonant := [([2911], Some [7823]);
     ([2867], Some [7735]);
     ([2869], Some [118]);
     ([2929], Some [119]);
     ([2871], Some [7779]);
     ([2849; 2876], Some [7771]);
     ([2850; 2876], Some [7771; 688]);
     ([2837], Some [107]);
     ([2838], Some [107; 688]);
     ([2839], Some [103]);
     ([2840], Some [103; 688]);
     ([2841], Some [7749]);
     ([2842], Some [99]);
     ([2843], Some [99; 688]);
     ([2844], Some [106]);
     ([2845], Some [106; 688]);
     ([2846], Some [241]);
     ([2847], Some [7789]);
     ([2848], Some [7789; 688]);
     ([2849], Some [7693]);
     ([2850], Some [7693; 688]);
     ([2851], Some [7751]);
     ([2852], Some [116]);
     ([2853], Some [116; 688]);
     ([2854], Some [100]);
     ([2855], Some [100; 688]);
     ([2856], Some [110]);
     ([2858], Some [112]);
     ([2859], Some [112; 688]);
     ([2860], Some [98]);
     ([2861], Some [98; 688]);
     ([2862], Some [109]);
     ([2863], Some [121]);
     ([2864], Some [114]);
     ([2866], Some [108]);
     ([2870], Some [347]);
     ([2872], Some [115]);
     ([2873], Some [104])]%N;
  sd_dead_consonant := []%N;
  sd_inherent_vowel := [([97], None)]%N;
  sd_standalone := []%N;
  sd_subjoined_consonant := []%N;
  sd_virama := [([2893], None)]%N;
  sd_vowel := [([2831], Some [275]);
     ([2835], Some [333]);
     ([2821], Some [97]);
     ([2822], Some [257]);
     ([2823], Some [105]);
     ([2824], Some [299]);
     ([2825], Some [117]);
     ([2826], Some [363]);
     ([2827], Some [114; 805]);
     ([2912], Some [114; 805; 772]);
     ([2828], Some [108; 805]);
     ([2913], Some [108; 805; 772]);
     ([2832], Some [97; 105]);
     ([2836], Some [97; 117])]%N;
  sd_vowel_length_sign := []%N;
  sd_vowel_sign := [([2887], Some [275]);
     ([2891], Some [333]);
     ([2878], Some [257]);
     ([2879], Some [105]);
     ([2880], Some [299]);
     ([2881], Some [117]);
     ([2882], Some [363]);
     ([2883], Some [114; 805]);
     ([2884], Some [114; 805; 772]);
     ([2914], Some [108; 805]);
     ([2915], Some [108; 805; 772]);
     ([2888], Some [97; 105]);
     ([2892], Some [97; 117])]%N;
  sd_nfc := [Rule [2887; 2902] [2888];
     Rule [2887; 2878] [2891];
     Rule [2887; 2903] [2892];
     Rule [2908] [2849; 2876];
     Rule [2909] [2850; 2876]]%N;
  sd_reading_norm := []%N;
  sd_visual_rewrite := [Rule [2821; 2878] [2822];
     Rule [2831; 2903] [2832];
     Rule [2835; 2903] [2836];
     Rule [2835; 2893; 2860] [2929];
     Rule [2835; 2893; 2929] [2929]]%N;
  sd_preserve := [Preserve [2893; 8204] 1114113]%N;
  sd_no_inherent_vowel := false |}.

Definition data_Sinh : script_data := {|
  sd_accept := []%N;
  sd_coda := [([3458], Some [7745]);
     ([3459], Some [7717])]%N;
  sd_consonant := [([3482], Some [107]);
     ([3483], Some [107; 688]);
     ([3484], Some [103]);
     ([3485], Some [103; 688]);
     ([3486], Some [7749]);
     ([3487], Some [7505; 103]);
     ([3488], Some [99]);
     ([3489], Some [99; 688]);
     ([3490], Some [106]);
     ([3491], Some [106; 688]);
     ([3492], Some [241]);
     ([3494], Some [7505; 106]);
     ([3495], Some [7789]);
     ([3496], Some [7789; 688]);
     ([3497], Some [7693]);
     ([3498], Some [7693; 688]);
     ([3499], Some [7751]);
     ([3500], Some [7505; 7693]);
     ([3501], Some [116]);
     ([3502], Some [116; 688]);
     ([3503], Some [100]);
     ([3504], Some [100; 688]);
     ([3505], Some [110]);
     ([3507], Some [7505; 100]);
     ([3508], Some [112]);
     ([3509], Some [112; 688]);
     ([3510], Some [98]);
     ([3511], Some [98; 688]);
     ([3512], Some [109]);
     ([3513], Some [7505; 98]);
     ([3514], Some [121]);
     ([3515], Some [114]);
     ([3517], Some [108]);
     ([3525], Some [7735]);
     ([3520], Some [118]);
     ([3521], Some [347]);
     ([3522], Some [7779]);
     ([3523], Some [115]);
     ([3524], Some [104]);
     ([3526], Some [102]);
     ([3493], Some [7505; 496])]%N;
  sd_dead_consonant := []%N;
  sd_inherent_vowel := [([97], None)]%N;
  sd_standalone := []%N;
  sd_subjoined_consonant := []%N;
  sd_virama := [([3530], None)]%N;
  sd_vowel := [([3461], Some [97]);
     ([3462], Some [257]);
     ([3463], Some [230]);
     ([3464], Some [483]);
     ([3465], Some [105]);
     ([3466], Some [299]);
     ([3467], Some [117]);
     ([3468], Some [363]);
     ([3469], Some [114; 805]);
     ([3470], Some [114; 805; 772]);
     ([3471], Some [108; 805]);
     ([3472], Some [108; 805; 772]);
     ([3473], Some [101]);
     ([3474], Some [275]);
     ([3475], Some [97; 105]);
     ([3476], Some [111]);
     ([3477], Some [333]);
     ([3478], Some [97; 117])]%N;
  sd_vowel_length_sign := []%N;
  sd_vowel_sign := [([3535], Some [257]);
     ([3536], Some [230]);
     ([3537], Some [483]);
     ([3538], Some [105]);
     ([3539], Some [299]);
     ([3540], Some [117]);
     ([3542], Some [363]);
     ([3544], Some [114; 805]);
     ([3570], Some [114; 805; 772]);
     ([3551], Some [108; 805]);
     ([3571], Some [108; 805; 772]);
     ([3545], Some [101]);
     ([3546], Some [275]);
     ([3547], Some [97; 105]);
     ([3548], Some [111]);
     ([3549], Some [333]);
     ([3550], Some [97; 117])]%N;
  sd_nfc := [Rule [3545; 3530] [3546];
     Rule [3545; 3535] [3548];
     Rule [3548; 3530] [3549];
     Rule [3545; 3535; 3530] [3549];
     Rule [3545; 3551] [3550]]%N;
  sd_reading_norm := []%N;
  sd_visual_rewrite := [Rule [3461; 3535] [3462];
     Rule [3461; 3536] [3463];
     Rule [3461; 3537] [3464];
     Rule [3467; 3551] [3468];
     Rule [3469; 3544] [3470];
     Rule [3471; 3551] [3472];
     Rule [3473; 3530] [3474];
     Rule [3473; 3545] [3475];
     Rule [3476; 3551] [3478];
     Rule [3545; 3545] [3547];
     Rule [3544; 3544] [3570];
     Rule [8205; 3530; 8205] [3530; 8205];
     Rule [3538; 8205; 3530; 8205; 3515] [3530; 8205; 3515; 3538];
     Rule [3539; 8205; 3530; 8205; 3515] [3530; 8205; 3515; 3539];
     Rule [3546; 8205; 3530; 8205; 3515] [3530; 8205; 3515; 3546]]%N;
  sd_preserve := [Preserve [3530; 8205] 1114114; Preserve [8205; 3530] 1114112]%N;
  sd_no_inherent_vowel := false |}.

Definition data_Sylo : script_data := {|
  sd_accept := []%N;
  sd_coda := [([43019], Some [7745])]%N;
  sd_consonant := [([43015], Some [107]);
     ([43016], Some [107; 688]);
     ([43017], Some [103]);
     ([43018], Some [103; 688]);
     ([43020], Some [99]);
     ([43021], Some [99; 688]);
     ([43022], Some [106]);
     ([43023], Some [106; 688]);
     ([43024], Some [7789]);
     ([43025], Some [7789; 688]);
     ([43026], Some [7693]);
     ([43027], Some [7693; 688]);
     ([43028], Some [116]);
     ([43029], Some [116; 688]);
     ([43030], Some [100]);
     ([43031], Some [100; 688]);
     ([43032], Some [110]);
     ([43033], Some [112]);
     ([43034], Some [112; 688]);
     ([43035], Some [98]);
     ([43036], Some [98; 688]);
     ([43037], Some [109]);
     ([43038], Some [114]);
     ([43039], Some [108]);
     ([43040], Some [114; 774]);
     ([43041], Some [115]);
     ([43042], Some [104])]%N;
  sd_dead_consonant := []%N;
  sd_inherent_vowel := [([111], None)]%N;
  sd_standalone := []%N;
  sd_subjoined_consonant := []%N;
  sd_virama := [([43014], None)]%N;
  sd_vowel := [([43008], Some [97]);
     ([43009], Some [105]);
     ([43011], Some [117]);
     ([43012], Some [101]);
     ([43013], Some [111]);
     ([43008; 43010], Some [97; 105]);
     ([43011; 43010], Some [117; 105]);
     ([43012; 43010], Some [101; 105]);
     ([43013; 43010], Some [111; 105])]%N;
  sd_vowel_length_sign := []%N;
  sd_vowel_sign := [([43043], Some [97]);
     ([43044], Some [105]);
     ([43045], Some [117]);
     ([43046], Some [101]);
     ([43047], Some [333]);
     ([43010], Some [111; 105]);
     ([43043; 43010], Some [97; 105]);
     ([43045; 43010], Some [117; 105])]%N;
  sd_nfc := []%N;
  sd_reading_norm := []%N;
  sd_visual_rewrite := []%N;
  sd_preserve := []%N;
  sd_no_inherent_vowel := false |}.

Definition data_Takr : script_data := {|
  sd_accept := []%N;
  sd_coda := [([71339], Some [7745]);
     ([71340], Some [7717])]%N;
  sd_consonant := [([71334], Some [118]);
     ([71338], Some [7775]);
     ([71306; 71351], Some [113]);
     ([71307; 71351], Some [120]);
     ([71309; 71351], Some [7713; 688]);
     ([71313; 71351], Some [122]);
     ([71327; 71351], Some [102]);
     ([71306], Some [107]);
     ([71307], Some [107; 688]);
     ([71308], Some [103]);
     ([71309], Some [103; 688]);
     ([71310], Some [7749]);
     ([71311], Some [99]);
     ([71312], Some [99; 688]);
     ([71313], Some [106]);
     ([71314], Some [106; 688]);
     ([71315], Some [241]);
     ([71316], Some [7789]);
     ([71317], Some [7789; 688]);
     ([71318], Some [7693]);
     ([71319], Some [7693; 688]);
     ([71320], Some [7751]);
     ([71321], Some [116]);
     ([71322], Some [116; 688]);
     ([71323], Some [100]);
     ([71324], Some [100; 688]);
     ([71325], Some [110]);
     ([71326], Some [112]);
     ([71327], Some [112; 688]);
     ([71328], Some [98]);
     ([71329], Some [98; 688]);
     ([71330], Some [109]);
     ([71331], Some [121]);
     ([71332], Some [114]);
     ([71333], Some [108]);
     ([71335], Some [347]);
     ([71336], Some [115]);
     ([71337], Some [104])]%N;
  sd_dead_consonant := []%N;
  sd_inherent_vowel := [([97], None)]%N;
  sd_standalone := []%N;
  sd_subjoined_consonant := []%N;
  sd_virama := [([71350], None)]%N;
  sd_vowel := [([71296], Some [97]);
     ([71297], Some [257]);
     ([71298], Some [105]);
     ([71299], Some [299]);
     ([71300], Some [117]);
     ([71301], Some [363]);
     ([71302], Some [275]);
     ([71303], Some [97; 105]);
     ([71304], Some [333]);
     ([71305], Some [97; 117])]%N;
  sd_vowel_length_sign := []%N;
  sd_vowel_sign := [([71341], Some [257]);
     ([71342], Some [105]);
     ([71343], Some [299]);
     ([71344], Some [117]);
     ([71345], Some [363]);
     ([71346], Some [275]);
     ([71347], Some [97; 105]);
     ([71348], Some [333]);
     ([71349], Some [97; 117])]%N;
  sd_nfc := []%N;
  sd_reading_norm := []%N;
  sd_visual_rewrite := [Rule [71296; 71341] [71297];
     Rule [71302; 71346] [71303];
     Rule [71296; 71348] [71304];
     Rule [71296; 71349] [71305]]%N;
  sd_preserve := [Preserve [8205; 71350] 1114112; Preserve [71350; 8204] 1114113]%N;
  sd_no_inherent_vowel := false |}.

Definition data_Taml : script_data := {|
  sd_accept := []%N;
  sd_coda := [([2946], Some [7745])]%N;
  sd_consonant := [([2965], Some [107]);
     ([2969], Some [7749]);
     ([2970], Some [99]);
     ([2972], Some [106]);
     ([2974], Some [241]);
     ([2975], Some [7789]);
     ([2979], Some [7751]);
     ([2980], Some [116]);
     ([2984], Some [110]);
     ([2986], Some [112]);
     ([2990], Some [109]);
     ([2993], Some [7775]);
     ([2985], Some [7753]);
     ([2996], Some [7739]);
     ([2991], Some [121]);
     ([2992], Some [114]);
     ([2994], Some [108]);
     ([2995], Some [7735]);
     ([2997], Some [118]);
     ([2998], Some [347]);
     ([2999], Some [7779]);
     ([3000], Some [115]);
     ([3001], Some [104]);
     ([2947; 2986], Some [102]);
     ([2947; 2972], Some [122]);
     ([2947; 3000], Some [120]);
     ([2947; 2965], Some [113])]%N;
  sd_dead_consonant := []%N;
  sd_inherent_vowel := [([97], None)]%N;
  sd_standalone := [([2947], Some [7733])]%N;
  sd_subjoined_consonant := []%N;
  sd_virama := [([3021], None)]%N;
  sd_vowel := [([2949], Some [97]);
     ([2950], Some [257]);
     ([2951], Some [105]);
     ([2952], Some [299]);
     ([2953], Some [117]);
     ([2954], Some [363]);
     ([2958], Some [101]);
     ([2959], Some [275]);
     ([2960], Some [97; 105]);
     ([2962], Some [111]);
     ([2963], Some [333]);
     ([2964], Some [97; 117])]%N;
  sd_vowel_length_sign := []%N;
  sd_vowel_sign := [([3006], Some [257]);
     ([3007], Some [105]);
     ([3008], Some [299]);
     ([3009], Some [117]);
     ([3010], Some [363]);
     ([3014], Some [101]);
     ([3015], Some [275]);
     ([3016], Some [97; 105]);
     ([3018], Some [111]);
     ([3019], Some [333]);
     ([3020], Some [97; 117])]%N;
  sd_nfc := [Rule [2962; 3031] [2964];
     Rule [3014; 3006] [3018];
     Rule [3015; 3006] [3019];
     Rule [3014; 3031] [3020]]%N;
  sd_reading_norm := []%N;
  sd_visual_rewrite := [Rule [2949; 3010] [2950];
     Rule [3006; 3021] [2992; 3021];
     Rule [3006; 3007] [2992; 3007];
     Rule [3006; 3008] [2992; 3008];
     Rule [3000; 3021; 2992; 3008] [2998; 3021; 2992; 3008];
     Rule [2953; 3031] [2954];
     Rule [3009; 3006] [3010];
     Rule [3018; 3021] [3014; 2992; 3021];
     Rule [3018; 3006] [3014; 2992; 3006];
     Rule [3018; 3007] [3014; 2992; 3007];
     Rule [3019; 3021] [3015; 2992; 3021];
     Rule [3019; 3006] [3015; 2992; 3006];
     Rule [3019; 3007] [3015; 2992; 3007];
     Rule [3020; 3021] [3014; 2995; 3021];
     Rule [3020; 3006] [3014; 2995; 3006];
     Rule [3020; 3007] [3014; 2995; 3007];
     Rule [3006; 3014] [3018];
     Rule [3006; 3015] [3019];
     Rule [3031; 3014] [3020]]%N;
  sd_preserve := [Preserve [3021; 8204] 1114113]%N;
  sd_no_inherent_vowel := false |}.

Definition data_Telu : script_data := {|
  sd_accept := []%N;
  sd_coda := [([3072], Some [110; 784]);
     ([3074], Some [7745]);
     ([3073], Some [109; 784]);
     ([3075], Some [7717]);
     ([3133], Some [8217])]%N;
  sd_consonant := [([3125], Some [118]);
     ([3161], Some [122]);
     ([3160], Some [265]);
     ([3121], Some [7775]);
     ([3123], Some [7735]);
     ([3124], Some [7739]);
     ([3127], Some [7779]);
     ([3093], Some [107]);
     ([3094], Some [107; 688]);
     ([3095], Some [103]);
     ([3096], Some [103; 688]);
     ([3097], Some [7749]);
     ([3098], Some [99]);
     ([3099], Some [99; 688]);
     ([3100], Some [106]);
     ([3101], Some [106; 688]);
     ([3102], Some [241]);
     ([3103], Some [7789]);
     ([3104], Some [7789; 688]);
     ([3105], Some [7693]);
     ([3106], Some [7693; 688]);
     ([3107], Some [7751]);
     ([3108], Some [116]);
     ([3109], Some [116; 688]);
     ([3110], Some [100]);
     ([3111], Some [100; 688]);
     ([3112], Some [110]);
     ([3114], Some [112]);
     ([3115], Some [112; 688]);
     ([3116], Some [98]);
     ([3117], Some [98; 688]);
     ([3118], Some [109]);
     ([3119], Some [121]);
     ([3120], Some [114]);
     ([3122], Some [108]);
     ([3126], Some [347]);
     ([3128], Some [115]);
     ([3129], Some [104])]%N;
  sd_dead_consonant := []%N;
  sd_inherent_vowel := [([97], None)]%N;
  sd_standalone := []%N;
  sd_subjoined_consonant := []%N;
  sd_virama := [([3149], None)]%N;
  sd_vowel := [([3086], Some [101]);
     ([3090], Some [111]);
     ([3087], Some [275]);
     ([3091], Some [333]);
     ([3077], Some [97]);
     ([3078], Some [257]);
     ([3079], Some [105]);
     ([3080], Some [299]);
     ([3081], Some [117]);
     ([3082], Some [363]);
     ([3083], Some [114; 805]);
     ([3168], Some [114; 805; 772]);
     ([3084], Some [108; 805]);
     ([3169], Some [108; 805; 772]);
     ([3088], Some [97; 105]);
     ([3092], Some [97; 117])]%N;
  sd_vowel_length_sign := []%N;
  sd_vowel_sign := [([3142], Some [101]);
     ([3146], Some [111]);
     ([3143], Some [275]);
     ([3147], Some [333]);
     ([3134], Some [257]);
     ([3135], Some [105]);
     ([3136], Some [299]);
     ([3137], Some [117]);
     ([3138], Some [363]);
     ([3139], Some [114; 805]);
     ([3140], Some [114; 805; 772]);
     ([3170], Some [108; 805]);
     ([3171], Some [108; 805; 772]);
     ([3144], Some [97; 105]);
     ([3148], Some [97; 117])]%N;
  sd_nfc := [Rule [3142; 3158] [3144]]%N;
  sd_reading_norm := []%N;
  sd_visual_rewrite := [Rule [3090; 3157] [3091];
     Rule [3090; 3148] [3092];
     Rule [3135; 3157] [3136];
     Rule [3142; 3157] [3143];
     Rule [3146; 3157] [3147];
     Rule [3116; 3137; 3137] [3083]]%N;
  sd_preserve := [Preserve [3149; 8204] 1114113]%N;
  sd_no_inherent_vowel := false |}.

Definition data_Tglg : script_data := {|
  sd_accept := []%N;
  sd_coda := []%N;
  sd_consonant := [([5891], Some [107]);
     ([5892], Some [103]);
     ([5893], Some [7749]);
     ([5894], Some [116]);
     ([5895], Some [100]);
     ([5896], Some [110]);
     ([5897], Some [112]);
     ([5898], Some [98]);
     ([5899], Some [109]);
     ([5900], Some [121]);
     ([5902], Some [108]);
     ([5903], Some [119]);
     ([5904], Some [115]);
     ([5905], Some [104])]%N;
  sd_dead_consonant := []%N;
  sd_inherent_vowel := [([97], None)]%N;
  sd_standalone := []%N;
  sd_subjoined_consonant := []%N;
  sd_virama := [([5908], None)]%N;
  sd_vowel := [([5888], Some [97]);
     ([5889], Some [105]);
     ([5890], Some [117])]%N;
  sd_vowel_length_sign := []%N;
  sd_vowel_sign := [([5906], Some [105]);
     ([5907], Some [117])]%N;
  sd_nfc := []%N;
  sd_reading_norm := []%N;
  sd_visual_rewrite := []%N;
  sd_preserve := []%N;
  sd_no_inherent_vowel := false |}.

Definition data_Thaa : script_data := {|
  sd_accept := []%N;
  sd_coda := [([1927; 1968], Some [7830])]%N;
  sd_consonant := [([1920], Some [104]);
     ([1921], Some [347]);
     ([1922], Some [110]);
     ([1923], Some [114]);
     ([1924], Some [98]);
     ([1925], Some [7735]);
     ([1926], Some [107]);
     ([1928], Some [118]);
     ([1929], Some [109]);
     ([1930], Some [102]);
     ([1931], Some [100]);
     ([1932], Some [116]);
     ([1933], Some [108]);
     ([1934], Some [103]);
     ([1935], Some [241]);
     ([1936], Some [115]);
     ([1937], Some [7693]);
     ([1938], Some [122]);
     ([1939], Some [7789]);
     ([1940], Some [121]);
     ([1941], Some [112]);
     ([1942], Some [106]);
     ([1943], Some [99]);
     ([1969], Some [328]);
     ([1944], Some [116; 688]);
     ([1945], Some [7717]);
     ([1946], Some [107; 688]);
     ([1947], Some [100; 688]);
     ([1948], Some [382]);
     ([1949], Some [115; 688]);
     ([1950], Some [7779]);
     ([1951], Some [7695]);
     ([1952], Some [7831]);
     ([1953], Some [7827]);
     ([1954], Some [39]);
     ([1955], Some [103; 688]);
     ([1956], Some [113; 688]);
     ([1957], Some [119]);
     ([1922; 1941], Some [8319; 112]);
     ([1922; 1924], Some [8319; 98]);
     ([1922; 1932], Some [8319; 116]);
     ([1922; 1931], Some [8319; 100]);
     ([1922; 1943], Some [8319; 99]);
     ([1922; 1942], Some [8319; 106]);
     ([1922; 1939], Some [8319; 7789]);
     ([1922; 1937], Some [8319; 7693]);
     ([1922; 1926], Some [8319; 107]);
     ([1922; 1934], Some [8319; 103])]%N;
  sd_dead_consonant := []%N;
  sd_inherent_vowel := []%N;
  sd_standalone := []%N;
  sd_subjoined_consonant := []%N;
  sd_virama := [([1968], None)]%N;
  sd_vowel := [([1927; 1958], Some [97]);
     ([1927; 1959], Some [257]);
     ([1927; 1960], Some [105]);
     ([1927; 1961], Some [299]);
     ([1927; 1962], Some [117]);
     ([1927; 1963], Some [363]);
     ([1927; 1964], Some [101]);
     ([1927; 1965], Some [275]);
     ([1927; 1966], Some [111]);
     ([1927; 1967], Some [333])]%N;
  sd_vowel_length_sign := []%N;
  sd_vowel_sign := [([1958], Some [97]);
     ([1959], Some [257]);
     ([1960], Some [105]);
     ([1961], Some [299]);
     ([1962], Some [117]);
     ([1963], Some [363]);
     ([1964], Some [101]);
     ([1965], Some [275]);
     ([1966], Some [111]);
     ([1967], Some [333])]%N;
  sd_nfc := []%N;
  sd_reading_norm := []%N;
  sd_visual_rewrite := []%N;
  sd_preserve := []%N;
  sd_no_inherent_vowel := true |}.

Definition data_Tirh : script_data := {|
  sd_accept := []%N;
  sd_coda := [([70853], Some [7745; 803]);
     ([70848], Some [7745]);
     ([70847], Some [109; 784]);
     ([70849], Some [7717]);
     ([70852], Some [8217])]%N;
  sd_consonant := [([70827], Some [118]);
     ([70829], Some [7779]);
     ([70811; 70851], Some [7771]);
     ([70812; 70851], Some [7771; 688]);
     ([70826; 70851], Some [7735]);
     ([70824; 70851], Some [7823]);
     ([70799], Some [107]);
     ([70800], Some [107; 688]);
     ([70801], Some [103]);
     ([70802], Some [103; 688]);
     ([70803], Some [7749]);
     ([70804], Some [99]);
     ([70805], Some [99; 688]);
     ([70806], Some [106]);
     ([70807], Some [106; 688]);
     ([70808], Some [241]);
     ([70809], Some [7789]);
     ([70810], Some [7789; 688]);
     ([70811], Some [7693]);
     ([70812], Some [7693; 688]);
     ([70813], Some [7751]);
     ([70814], Some [116]);
     ([70815], Some [116; 688]);
     ([70816], Some [100]);
     ([70817], Some [100; 688]);
     ([70818], Some [110]);
     ([70819], Some [112]);
     ([70820], Some [112; 688]);
     ([70821], Some [98]);
     ([70822], Some [98; 688]);
     ([70823], Some [109]);
     ([70824], Some [121]);
     ([70825], Some [114]);
     ([70826], Some [108]);
     ([70828], Some [347]);
     ([70830], Some [115]);
     ([70831], Some [104])]%N;
  sd_dead_consonant := []%N;
  sd_inherent_vowel := [([97], None)]%N;
  sd_standalone := [([70784], Some [608]);
     ([70855], Some [245; 109])]%N;
  sd_subjoined_consonant := []%N;
  sd_virama := [([70850], None)]%N;
  sd_vowel := [([70795], Some [275]);
     ([70797], Some [333]);
     ([70785], Some [97]);
     ([70786], Some [257]);
     ([70787], Some [105]);
     ([70788], Some [299]);
     ([70789], Some [117]);
     ([70790], Some [363]);
     ([70791], Some [114; 805]);
     ([70792], Some [114; 805; 772]);
     ([70793], Some [108; 805]);
     ([70794], Some [108; 805; 772]);
     ([70796], Some [97; 105]);
     ([70798], Some [97; 117])]%N;
  sd_vowel_length_sign := []%N;
  sd_vowel_sign := [([70841], Some [275]);
     ([70842], Some [233]);
     ([70844], Some [333]);
     ([70845], Some [243]);
     ([70832], Some [257]);
     ([70833], Some [105]);
     ([70834], Some [299]);
     ([70835], Some [117]);
     ([70836], Some [363]);
     ([70837], Some [114; 805]);
     ([70838], Some [114; 805; 772]);
     ([70839], Some [108; 805]);
     ([70840], Some [108; 805; 772]);
     ([70843], Some [97; 105]);
     ([70846], Some [97; 117])]%N;
  sd_nfc := [Rule [70841; 70842] [70843];
     Rule [70841; 70832] [70844];
     Rule [70841; 70845] [70846]]%N;
  sd_reading_norm := []%N;
  sd_visual_rewrite := [Rule [70785; 70832] [70786];
     Rule [70826; 70837] [70793];
     Rule [70826; 70838] [70794];
     Rule [70795; 70842] [70796];
     Rule [70797; 70842] [70798]]%N;
  sd_preserve := [Preserve [8205; 70850] 1114112; Preserve [70850; 8204] 1114113]%N;
  sd_no_inherent_vowel := false |}.

Definition all_scripts : list script_data :=
  [data_Beng; data_Bugi; data_Deva; data_Gujr; data_Guru; data_Knda; data_Lepc; data_Limb; data_Mlym; data_Mtei; data_Newa; data_Orya; data_Sinh; data_Sylo; data_Takr; data_Taml; data_Telu; data_Tglg; data_Thaa; data_Tirh].
