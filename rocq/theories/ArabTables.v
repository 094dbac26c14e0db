(** Rules for languages in Arabic script.
    Generated by rocq/gen/genarab.py, do not edit. *)
From Verif Require Import Base RuleModel.

(** nisaba/scripts/abjad_alphabet/data/Arab/presentation_forms.textproto *)
Definition presentation_forms : list rule :=
  [Rule [64336] [1649];
   Rule [64337] [1649];
   Rule [64338] [1659];
   Rule [64339] [1659];
   Rule [64340] [1659];
   Rule [64341] [1659];
   Rule [64342] [1662];
   Rule [64343] [1662];
   Rule [64344] [1662];
   Rule [64345] [1662];
   Rule [64346] [1664];
   Rule [64347] [1664];
   Rule [64348] [1664];
   Rule [64349] [1664];
   Rule [64350] [1658];
   Rule [64351] [1658];
   Rule [64352] [1658];
   Rule [64353] [1658];
   Rule [64354] [1663];
   Rule [64355] [1663];
   Rule [64356] [1663];
   Rule [64357] [1663];
   Rule [64358] [1657];
   Rule [64359] [1657];
   Rule [64360] [1657];
   Rule [64361] [1657];
   Rule [64362] [1700];
   Rule [64363] [1700];
   Rule [64364] [1700];
   Rule [64365] [1700];
   Rule [64366] [1702];
   Rule [64367] [1702];
   Rule [64368] [1702];
   Rule [64369] [1702];
   Rule [64370] [1668];
   Rule [64371] [1668];
   Rule [64372] [1668];
   Rule [64373] [1668];
   Rule [64374] [1667];
   Rule [64375] [1667];
   Rule [64376] [1667];
   Rule [64377] [1667];
   Rule [64378] [1670];
   Rule [64379] [1670];
   Rule [64380] [1670];
   Rule [64381] [1670];
   Rule [64382] [1671];
   Rule [64383] [1671];
   Rule [64384] [1671];
   Rule [64385] [1671];
   Rule [64386] [1677];
   Rule [64387] [1677];
   Rule [64388] [1676];
   Rule [64389] [1676];
   Rule [64392] [1672];
   Rule [64393] [1672];
   Rule [64394] [1688];
   Rule [64395] [1688];
   Rule [64396] [1681];
   Rule [64397] [1681];
   Rule [64398] [1705];
   Rule [64399] [1705];
   Rule [64400] [1705];
   Rule [64401] [1705];
   Rule [64402] [1711];
   Rule [64403] [1711];
   Rule [64404] [1711];
   Rule [64405] [1711];
   Rule [64406] [1715];
   Rule [64407] [1715];
   Rule [64408] [1715];
   Rule [64409] [1715];
   Rule [64410] [1713];
   Rule [64411] [1713];
   Rule [64412] [1713];
   Rule [64413] [1713];
   Rule [64414] [1722];
   Rule [64415] [1722];
   Rule [64416] [1723];
   Rule [64417] [1723];
   Rule [64418] [1723];
   Rule [64419] [1723];
   Rule [64420] [1728];
   Rule [64421] [1728];
   Rule [64422] [1729];
   Rule [64423] [1729];
   Rule [64424] [1729];
   Rule [64425] [1729];
   Rule [64426] [1726];
   Rule [64427] [1726];
   Rule [64428] [1726];
   Rule [64429] [1726];
   Rule [64430] [1746];
   Rule [64431] [1746];
   Rule [64432] [1747];
   Rule [64433] [1747];
   Rule [64467] [1709];
   Rule [64468] [1709];
   Rule [64469] [1709];
   Rule [64470] [1709];
   Rule [64471] [1735];
   Rule [64472] [1735];
   Rule [64473] [1734];
   Rule [64474] [1734];
   Rule [64477] [1655];
   Rule [64478] [1739];
   Rule [64479] [1739];
   Rule [64480] [1733];
   Rule [64481] [1733];
   Rule [64484] [1744];
   Rule [64485] [1744];
   Rule [64486] [1744];
   Rule [64487] [1744];
   Rule [64488] [1609];
   Rule [64489] [1609];
   Rule [64490] [1574; 1575];
   Rule [64491] [1574; 1575];
   Rule [64492] [1574; 1749];
   Rule [64493] [1574; 1749];
   Rule [64494] [1574; 1608];
   Rule [64495] [1574; 1608];
   Rule [64496] [1574; 1735];
   Rule [64497] [1574; 1735];
   Rule [64498] [1574; 1734];
   Rule [64499] [1574; 1734];
   Rule [64502] [1574; 1744];
   Rule [64503] [1574; 1744];
   Rule [64504] [1574; 1744];
   Rule [64505] [1574; 1609];
   Rule [64506] [1574; 1609];
   Rule [64507] [1574; 1609];
   Rule [64508] [1740];
   Rule [64509] [1740];
   Rule [64510] [1740];
   Rule [64511] [1740];
   Rule [64512] [1574; 1580];
   Rule [64513] [1574; 1581];
   Rule [64514] [1574; 1605];
   Rule [64515] [1574; 1609];
   Rule [64516] [1574; 1610];
   Rule [64517] [1576; 1580];
   Rule [64518] [1576; 1581];
   Rule [64519] [1576; 1582];
   Rule [64520] [1576; 1605];
   Rule [64521] [1576; 1609];
   Rule [64522] [1576; 1610];
   Rule [64523] [1578; 1580];
   Rule [64524] [1578; 1581];
   Rule [64525] [1578; 1582];
   Rule [64526] [1578; 1605];
   Rule [64527] [1578; 1609];
   Rule [64528] [1578; 1610];
   Rule [64529] [1579; 1580];
   Rule [64530] [1579; 1605];
   Rule [64531] [1579; 1609];
   Rule [64532] [1579; 1610];
   Rule [64533] [1580; 1581];
   Rule [64534] [1580; 1605];
   Rule [64535] [1581; 1580];
   Rule [64536] [1581; 1605];
   Rule [64537] [1582; 1580];
   Rule [64538] [1582; 1581];
   Rule [64539] [1582; 1605];
   Rule [64540] [1587; 1580];
   Rule [64541] [1587; 1581];
   Rule [64542] [1587; 1582];
   Rule [64543] [1587; 1605];
   Rule [64544] [1589; 1581];
   Rule [64545] [1589; 1605];
   Rule [64546] [1590; 1580];
   Rule [64547] [1590; 1581];
   Rule [64548] [1590; 1582];
   Rule [64549] [1590; 1605];
   Rule [64550] [1591; 1581];
   Rule [64551] [1591; 1605];
   Rule [64552] [1592; 1605];
   Rule [64553] [1593; 1580];
   Rule [64554] [1593; 1605];
   Rule [64555] [1594; 1580];
   Rule [64556] [1594; 1605];
   Rule [64557] [1601; 1580];
   Rule [64558] [1601; 1581];
   Rule [64559] [1601; 1582];
   Rule [64560] [1601; 1605];
   Rule [64561] [1601; 1609];
   Rule [64562] [1601; 1610];
   Rule [64563] [1602; 1581];
   Rule [64564] [1602; 1605];
   Rule [64565] [1602; 1609];
   Rule [64566] [1602; 1610];
   Rule [64567] [1603; 1575];
   Rule [64568] [1603; 1580];
   Rule [64569] [1603; 1581];
   Rule [64570] [1603; 1582];
   Rule [64571] [1603; 1604];
   Rule [64572] [1603; 1605];
   Rule [64573] [1603; 1609];
   Rule [64574] [1603; 1610];
   Rule [64575] [1604; 1580];
   Rule [64576] [1604; 1581];
   Rule [64577] [1604; 1582];
   Rule [64578] [1604; 1605];
   Rule [64579] [1604; 1609];
   Rule [64580] [1604; 1610];
   Rule [64581] [1605; 1580];
   Rule [64582] [1605; 1581];
   Rule [64583] [1605; 1582];
   Rule [64584] [1605; 1605];
   Rule [64585] [1605; 1609];
   Rule [64586] [1605; 1610];
   Rule [64587] [1606; 1580];
   Rule [64588] [1606; 1581];
   Rule [64589] [1606; 1582];
   Rule [64590] [1606; 1605];
   Rule [64591] [1606; 1609];
   Rule [64592] [1606; 1610];
   Rule [64593] [1607; 1580];
   Rule [64594] [1607; 1605];
   Rule [64595] [1607; 1609];
   Rule [64596] [1607; 1610];
   Rule [64597] [1610; 1580];
   Rule [64598] [1610; 1581];
   Rule [64599] [1610; 1582];
   Rule [64600] [1610; 1605];
   Rule [64601] [1610; 1609];
   Rule [64602] [1610; 1610];
   Rule [64603] [1584; 1648];
   Rule [64604] [1585; 1648];
   Rule [64605] [1609; 1648];
   Rule [64612] [1574; 1585];
   Rule [64613] [1574; 1586];
   Rule [64614] [1574; 1605];
   Rule [64615] [1574; 1606];
   Rule [64616] [1574; 1609];
   Rule [64617] [1574; 1610];
   Rule [64618] [1576; 1585];
   Rule [64619] [1576; 1586];
   Rule [64620] [1576; 1605];
   Rule [64621] [1576; 1606];
   Rule [64622] [1576; 1609];
   Rule [64623] [1576; 1610];
   Rule [64624] [1578; 1585];
   Rule [64625] [1578; 1586];
   Rule [64626] [1578; 1605];
   Rule [64627] [1578; 1606];
   Rule [64628] [1578; 1609];
   Rule [64629] [1578; 1610];
   Rule [64630] [1579; 1585];
   Rule [64631] [1579; 1586];
   Rule [64632] [1579; 1605];
   Rule [64633] [1579; 1606];
   Rule [64634] [1579; 1609];
   Rule [64635] [1579; 1610];
   Rule [64636] [1601; 1609];
   Rule [64637] [1601; 1610];
   Rule [64638] [1602; 1609];
   Rule [64639] [1602; 1610];
   Rule [64640] [1603; 1575];
   Rule [64641] [1603; 1604];
   Rule [64642] [1603; 1605];
   Rule [64643] [1603; 1609];
   Rule [64644] [1603; 1610];
   Rule [64645] [1604; 1605];
   Rule [64646] [1604; 1609];
   Rule [64647] [1604; 1610];
   Rule [64648] [1605; 1575];
   Rule [64649] [1605; 1605];
   Rule [64650] [1606; 1585];
   Rule [64651] [1606; 1586];
   Rule [64652] [1606; 1605];
   Rule [64653] [1606; 1606];
   Rule [64654] [1606; 1609];
   Rule [64655] [1606; 1610];
   Rule [64656] [1609; 1648];
   Rule [64657] [1610; 1585];
   Rule [64658] [1610; 1586];
   Rule [64659] [1610; 1605];
   Rule [64660] [1610; 1606];
   Rule [64661] [1610; 1609];
   Rule [64662] [1610; 1610];
   Rule [64663] [1574; 1580];
   Rule [64664] [1574; 1581];
   Rule [64665] [1574; 1582];
   Rule [64666] [1574; 1605];
   Rule [64667] [1574; 1607];
   Rule [64668] [1576; 1580];
   Rule [64669] [1576; 1581];
   Rule [64670] [1576; 1582];
   Rule [64671] [1576; 1605];
   Rule [64672] [1576; 1607];
   Rule [64673] [1578; 1580];
   Rule [64674] [1578; 1581];
   Rule [64675] [1578; 1582];
   Rule [64676] [1578; 1605];
   Rule [64677] [1578; 1607];
   Rule [64678] [1579; 1605];
   Rule [64679] [1580; 1581];
   Rule [64680] [1580; 1605];
   Rule [64681] [1581; 1580];
   Rule [64682] [1581; 1605];
   Rule [64683] [1582; 1580];
   Rule [64684] [1582; 1605];
   Rule [64685] [1587; 1580];
   Rule [64686] [1587; 1581];
   Rule [64687] [1587; 1582];
   Rule [64688] [1587; 1605];
   Rule [64689] [1589; 1581];
   Rule [64690] [1589; 1582];
   Rule [64691] [1589; 1605];
   Rule [64692] [1590; 1580];
   Rule [64693] [1590; 1581];
   Rule [64694] [1590; 1582];
   Rule [64695] [1590; 1605];
   Rule [64696] [1591; 1581];
   Rule [64697] [1592; 1605];
   Rule [64698] [1593; 1580];
   Rule [64699] [1593; 1605];
   Rule [64700] [1594; 1580];
   Rule [64701] [1594; 1605];
   Rule [64702] [1601; 1580];
   Rule [64703] [1601; 1581];
   Rule [64704] [1601; 1582];
   Rule [64705] [1601; 1605];
   Rule [64706] [1602; 1581];
   Rule [64707] [1602; 1605];
   Rule [64708] [1603; 1580];
   Rule [64709] [1603; 1581];
   Rule [64710] [1603; 1582];
   Rule [64711] [1603; 1604];
   Rule [64712] [1603; 1605];
   Rule [64713] [1604; 1580];
   Rule [64714] [1604; 1581];
   Rule [64715] [1604; 1582];
   Rule [64716] [1604; 1605];
   Rule [64717] [1604; 1607];
   Rule [64718] [1605; 1580];
   Rule [64719] [1605; 1581];
   Rule [64720] [1605; 1582];
   Rule [64721] [1605; 1605];
   Rule [64722] [1606; 1580];
   Rule [64723] [1606; 1581];
   Rule [64724] [1606; 1582];
   Rule [64725] [1606; 1605];
   Rule [64726] [1606; 1607];
   Rule [64727] [1607; 1580];
   Rule [64728] [1607; 1605];
   Rule [64729] [1607; 1648];
   Rule [64730] [1610; 1580];
   Rule [64731] [1610; 1581];
   Rule [64732] [1610; 1582];
   Rule [64733] [1610; 1605];
   Rule [64734] [1610; 1607];
   Rule [64735] [1574; 1605];
   Rule [64736] [1574; 1607];
   Rule [64737] [1576; 1605];
   Rule [64738] [1576; 1607];
   Rule [64739] [1578; 1605];
   Rule [64740] [1578; 1607];
   Rule [64741] [1579; 1605];
   Rule [64742] [1579; 1607];
   Rule [64743] [1587; 1605];
   Rule [64744] [1587; 1607];
   Rule [64745] [1588; 1605];
   Rule [64746] [1588; 1607];
   Rule [64747] [1603; 1604];
   Rule [64748] [1603; 1605];
   Rule [64749] [1604; 1605];
   Rule [64750] [1606; 1605];
   Rule [64751] [1606; 1607];
   Rule [64752] [1610; 1605];
   Rule [64753] [1610; 1607];
   Rule [64757] [1591; 1609];
   Rule [64758] [1591; 1610];
   Rule [64759] [1593; 1609];
   Rule [64760] [1593; 1610];
   Rule [64761] [1594; 1609];
   Rule [64762] [1594; 1610];
   Rule [64763] [1587; 1609];
   Rule [64764] [1587; 1610];
   Rule [64765] [1588; 1609];
   Rule [64766] [1588; 1610];
   Rule [64767] [1581; 1609];
   Rule [64768] [1581; 1610];
   Rule [64769] [1580; 1609];
   Rule [64770] [1580; 1610];
   Rule [64771] [1582; 1609];
   Rule [64772] [1582; 1610];
   Rule [64773] [1589; 1609];
   Rule [64774] [1589; 1610];
   Rule [64775] [1590; 1609];
   Rule [64776] [1590; 1610];
   Rule [64777] [1588; 1580];
   Rule [64778] [1588; 1581];
   Rule [64779] [1588; 1582];
   Rule [64780] [1588; 1605];
   Rule [64781] [1588; 1585];
   Rule [64782] [1587; 1585];
   Rule [64783] [1589; 1585];
   Rule [64784] [1590; 1585];
   Rule [64785] [1591; 1609];
   Rule [64786] [1591; 1610];
   Rule [64787] [1593; 1609];
   Rule [64788] [1593; 1610];
   Rule [64789] [1594; 1609];
   Rule [64790] [1594; 1610];
   Rule [64791] [1587; 1609];
   Rule [64792] [1587; 1610];
   Rule [64793] [1588; 1609];
   Rule [64794] [1588; 1610];
   Rule [64795] [1581; 1609];
   Rule [64796] [1581; 1610];
   Rule [64797] [1580; 1609];
   Rule [64798] [1580; 1610];
   Rule [64799] [1582; 1609];
   Rule [64800] [1582; 1610];
   Rule [64801] [1589; 1609];
   Rule [64802] [1589; 1610];
   Rule [64803] [1590; 1609];
   Rule [64804] [1590; 1610];
   Rule [64805] [1588; 1580];
   Rule [64806] [1588; 1581];
   Rule [64807] [1588; 1582];
   Rule [64808] [1588; 1605];
   Rule [64809] [1588; 1585];
   Rule [64810] [1587; 1585];
   Rule [64811] [1589; 1585];
   Rule [64812] [1590; 1585];
   Rule [64813] [1588; 1580];
   Rule [64814] [1588; 1581];
   Rule [64815] [1588; 1582];
   Rule [64816] [1588; 1605];
   Rule [64817] [1587; 1607];
   Rule [64818] [1588; 1607];
   Rule [64819] [1591; 1605];
   Rule [64820] [1587; 1580];
   Rule [64821] [1587; 1581];
   Rule [64822] [1587; 1582];
   Rule [64823] [1588; 1580];
   Rule [64824] [1588; 1581];
   Rule [64825] [1588; 1582];
   Rule [64826] [1591; 1605];
   Rule [64827] [1592; 1605];
   Rule [64828] [1575; 1611];
   Rule [64829] [1575; 1611];
   Rule [64848] [1578; 1580; 1605];
   Rule [64849] [1578; 1581; 1580];
   Rule [64850] [1578; 1581; 1580];
   Rule [64851] [1578; 1581; 1605];
   Rule [64852] [1578; 1582; 1605];
   Rule [64853] [1578; 1605; 1580];
   Rule [64854] [1578; 1605; 1581];
   Rule [64855] [1578; 1605; 1582];
   Rule [64856] [1580; 1605; 1581];
   Rule [64857] [1580; 1605; 1581];
   Rule [64858] [1581; 1605; 1610];
   Rule [64859] [1581; 1605; 1609];
   Rule [64860] [1587; 1581; 1580];
   Rule [64861] [1587; 1580; 1581];
   Rule [64862] [1587; 1580; 1609];
   Rule [64863] [1587; 1605; 1581];
   Rule [64864] [1587; 1605; 1581];
   Rule [64865] [1587; 1605; 1580];
   Rule [64866] [1587; 1605; 1605];
   Rule [64867] [1587; 1605; 1605];
   Rule [64868] [1589; 1581; 1581];
   Rule [64869] [1589; 1581; 1581];
   Rule [64870] [1589; 1605; 1605];
   Rule [64871] [1588; 1581; 1605];
   Rule [64872] [1588; 1581; 1605];
   Rule [64873] [1588; 1580; 1610];
   Rule [64874] [1588; 1605; 1582];
   Rule [64875] [1588; 1605; 1582];
   Rule [64876] [1588; 1605; 1605];
   Rule [64877] [1588; 1605; 1605];
   Rule [64878] [1590; 1581; 1609];
   Rule [64879] [1590; 1582; 1605];
   Rule [64880] [1590; 1582; 1605];
   Rule [64881] [1591; 1605; 1581];
   Rule [64882] [1591; 1605; 1581];
   Rule [64883] [1591; 1605; 1605];
   Rule [64884] [1591; 1605; 1610];
   Rule [64885] [1593; 1580; 1605];
   Rule [64886] [1593; 1605; 1605];
   Rule [64887] [1593; 1605; 1605];
   Rule [64888] [1593; 1605; 1609];
   Rule [64889] [1594; 1605; 1605];
   Rule [64890] [1594; 1605; 1610];
   Rule [64891] [1594; 1605; 1609];
   Rule [64892] [1601; 1582; 1605];
   Rule [64893] [1601; 1582; 1605];
   Rule [64894] [1602; 1605; 1581];
   Rule [64895] [1602; 1605; 1605];
   Rule [64896] [1604; 1581; 1605];
   Rule [64897] [1604; 1581; 1610];
   Rule [64898] [1604; 1581; 1609];
   Rule [64899] [1604; 1580; 1580];
   Rule [64900] [1604; 1580; 1580];
   Rule [64901] [1604; 1582; 1605];
   Rule [64902] [1604; 1582; 1605];
   Rule [64903] [1604; 1605; 1581];
   Rule [64904] [1604; 1605; 1581];
   Rule [64905] [1605; 1581; 1580];
   Rule [64906] [1605; 1581; 1605];
   Rule [64907] [1605; 1581; 1610];
   Rule [64908] [1605; 1580; 1581];
   Rule [64909] [1605; 1580; 1605];
   Rule [64910] [1605; 1582; 1580];
   Rule [64911] [1605; 1582; 1605];
   Rule [64914] [1605; 1580; 1582];
   Rule [64915] [1607; 1605; 1580];
   Rule [64916] [1607; 1605; 1605];
   Rule [64917] [1606; 1581; 1605];
   Rule [64918] [1606; 1581; 1609];
   Rule [64919] [1606; 1580; 1605];
   Rule [64920] [1606; 1580; 1605];
   Rule [64921] [1606; 1580; 1609];
   Rule [64922] [1606; 1605; 1610];
   Rule [64923] [1606; 1605; 1609];
   Rule [64924] [1610; 1605; 1605];
   Rule [64925] [1610; 1605; 1605];
   Rule [64926] [1576; 1582; 1610];
   Rule [64927] [1578; 1580; 1610];
   Rule [64928] [1578; 1580; 1609];
   Rule [64929] [1578; 1582; 1610];
   Rule [64930] [1578; 1582; 1609];
   Rule [64931] [1578; 1605; 1610];
   Rule [64932] [1578; 1605; 1609];
   Rule [64933] [1580; 1605; 1610];
   Rule [64934] [1580; 1581; 1609];
   Rule [64935] [1580; 1605; 1609];
   Rule [64936] [1587; 1582; 1609];
   Rule [64937] [1589; 1581; 1610];
   Rule [64938] [1588; 1581; 1610];
   Rule [64939] [1590; 1581; 1610];
   Rule [64940] [1604; 1580; 1610];
   Rule [64941] [1604; 1605; 1610];
   Rule [64942] [1610; 1581; 1610];
   Rule [64943] [1610; 1580; 1610];
   Rule [64944] [1610; 1605; 1610];
   Rule [64945] [1605; 1605; 1610];
   Rule [64946] [1602; 1605; 1610];
   Rule [64947] [1606; 1581; 1610];
   Rule [64948] [1602; 1605; 1581];
   Rule [64949] [1604; 1581; 1605];
   Rule [64950] [1593; 1605; 1610];
   Rule [64951] [1603; 1605; 1610];
   Rule [64952] [1606; 1580; 1581];
   Rule [64953] [1605; 1582; 1610];
   Rule [64954] [1604; 1580; 1605];
   Rule [64955] [1603; 1605; 1605];
   Rule [64956] [1604; 1580; 1605];
   Rule [64957] [1606; 1580; 1581];
   Rule [64958] [1580; 1581; 1610];
   Rule [64959] [1581; 1580; 1610];
   Rule [64960] [1605; 1580; 1610];
   Rule [64961] [1601; 1605; 1610];
   Rule [64962] [1576; 1581; 1610];
   Rule [64963] [1603; 1605; 1605];
   Rule [64964] [1593; 1580; 1605];
   Rule [64965] [1589; 1605; 1605];
   Rule [64966] [1587; 1582; 1610];
   Rule [64967] [1606; 1580; 1610];
   Rule [65008] [1589; 1604; 1746];
   Rule [65009] [1602; 1604; 1746];
   Rule [65010] [1575; 1604; 1604; 1607];
   Rule [65011] [1575; 1603; 1576; 1585];
   Rule [65012] [1605; 1581; 1605; 1583];
   Rule [65013] [1589; 1604; 1593; 1605];
   Rule [65014] [1585; 1587; 1608; 1604];
   Rule [65015] [1593; 1604; 1610; 1607];
   Rule [65016] [1608; 1587; 1604; 1605];
   Rule [65017] [1589; 1604; 1609];
   Rule [65018] [1589; 1604; 1609; 32; 1575; 1604; 1604; 1607; 32; 1593; 1604; 1610; 1607; 32; 1608; 1587; 1604; 1605];
   Rule [65019] [1580; 1604; 32; 1580; 1604; 1575; 1604; 1607];
   Rule [65152] [1569];
   Rule [65153] [1570];
   Rule [65154] [1570];
   Rule [65155] [1571];
   Rule [65156] [1571];
   Rule [65157] [1572];
   Rule [65158] [1572];
   Rule [65159] [1573];
   Rule [65160] [1573];
   Rule [65161] [1574];
   Rule [65162] [1574];
   Rule [65163] [1574];
   Rule [65164] [1574];
   Rule [65165] [1575];
   Rule [65166] [1575];
   Rule [65167] [1576];
   Rule [65168] [1576];
   Rule [65169] [1576];
   Rule [65170] [1576];
   Rule [65171] [1577];
   Rule [65172] [1577];
   Rule [65173] [1578];
   Rule [65174] [1578];
   Rule [65175] [1578];
   Rule [65176] [1578];
   Rule [65177] [1579];
   Rule [65178] [1579];
   Rule [65179] [1579];
   Rule [65180] [1579];
   Rule [65181] [1580];
   Rule [65182] [1580];
   Rule [65183] [1580];
   Rule [65184] [1580];
   Rule [65185] [1581];
   Rule [65186] [1581];
   Rule [65187] [1581];
   Rule [65188] [1581];
   Rule [65189] [1582];
   Rule [65190] [1582];
   Rule [65191] [1582];
   Rule [65192] [1582];
   Rule [65193] [1583];
   Rule [65194] [1583];
   Rule [65195] [1584];
   Rule [65196] [1584];
   Rule [65197] [1585];
   Rule [65198] [1585];
   Rule [65199] [1586];
   Rule [65200] [1586];
   Rule [65201] [1587];
   Rule [65202] [1587];
   Rule [65203] [1587];
   Rule [65204] [1587];
   Rule [65205] [1588];
   Rule [65206] [1588];
   Rule [65207] [1588];
   Rule [65208] [1588];
   Rule [65209] [1589];
   Rule [65210] [1589];
   Rule [65211] [1589];
   Rule [65212] [1589];
   Rule [65213] [1590];
   Rule [65214] [1590];
   Rule [65215] [1590];
   Rule [65216] [1590];
   Rule [65217] [1591];
   Rule [65218] [1591];
   Rule [65219] [1591];
   Rule [65220] [1591];
   Rule [65221] [1592];
   Rule [65222] [1592];
   Rule [65223] [1592];
   Rule [65224] [1592];
   Rule [65225] [1593];
   Rule [65226] [1593];
   Rule [65227] [1593];
   Rule [65228] [1593];
   Rule [65229] [1594];
   Rule [65230] [1594];
   Rule [65231] [1594];
   Rule [65232] [1594];
   Rule [65233] [1601];
   Rule [65234] [1601];
   Rule [65235] [1601];
   Rule [65236] [1601];
   Rule [65237] [1602];
   Rule [65238] [1602];
   Rule [65239] [1602];
   Rule [65240] [1602];
   Rule [65241] [1603];
   Rule [65242] [1603];
   Rule [65243] [1603];
   Rule [65244] [1603];
   Rule [65245] [1604];
   Rule [65246] [1604];
   Rule [65247] [1604];
   Rule [65248] [1604];
   Rule [65249] [1605];
   Rule [65250] [1605];
   Rule [65251] [1605];
   Rule [65252] [1605];
   Rule [65253] [1606];
   Rule [65254] [1606];
   Rule [65255] [1606];
   Rule [65256] [1606];
   Rule [65257] [1607];
   Rule [65258] [1607];
   Rule [65259] [1607];
   Rule [65260] [1607];
   Rule [65261] [1608];
   Rule [65262] [1608];
   Rule [65263] [1609];
   Rule [65264] [1609];
   Rule [65265] [1610];
   Rule [65266] [1610];
   Rule [65267] [1610];
   Rule [65268] [1610];
   Rule [65269] [1604; 1570];
   Rule [65270] [1604; 1570];
   Rule [65271] [1604; 1571];
   Rule [65272] [1604; 1571];
   Rule [65273] [1604; 1573];
   Rule [65274] [1604; 1573];
   Rule [65275] [1604; 1575];
   Rule [65276] [1604; 1575]]%N.

(** nisaba/scripts/abjad_alphabet/data/Arab/visual_norm.textproto *)
Definition arab_visual_norm : list rule :=
  [Rule [8203] [];
   Rule [8205] [];
   Rule [1608; 1615] [1735];
   Rule [1608; 1561] [1735]]%N.

(** The five rule files of a language *)
Record lang_rules := LangRules {
  visual_norm_tsv : list rule; nonfinal_tsv : list rule; final_isolated_tsv : list rule; isolated_tsv : list rule; reading_norm_tsv : list rule }.

(** nisaba/scripts/abjad_alphabet/data/Arab/ar/visual_norm.textproto, nisaba/scripts/abjad_alphabet/data/Arab/visual_norm.textproto *)
Definition visual_norm_ar : list rule :=
  [Rule [1581; 1772] [1582];
   Rule [1583; 1772] [1584];
   Rule [1585; 1772] [1586];
   Rule [1587; 1755] [1588];
   Rule [1589; 1772] [1590];
   Rule [1593; 1772] [1594];
   Rule [1603; 1755] [1709];
   Rule [1646; 1628] [1576];
   Rule [1646; 1755] [1579];
   Rule [1647; 1755] [1704];
   Rule [1697; 1755] [1700];
   Rule [1697; 1772] [1601];
   Rule [1722; 1772] [1606];
   Rule [1740; 1620] [1574];
   Rule [8203] [];
   Rule [8205] [];
   Rule [1608; 1615] [1735];
   Rule [1608; 1561] [1735]]%N.

(** nisaba/scripts/abjad_alphabet/data/Arab/ar/visual_norm_nonfinal.textproto *)
Definition visual_norm_nonfinal_ar : list rule :=
  [Rule [1740] [1610]]%N.

(** an empty file *)
Definition visual_norm_final_isolated_ar : list rule :=
  []%N.

(** nisaba/scripts/abjad_alphabet/data/Arab/ar/visual_norm_isolated.textproto *)
Definition visual_norm_isolated_ar : list rule :=
  [Rule [1601] [1703];
   Rule [1729] [1607];
   Rule [1731] [1577]]%N.

(** nisaba/scripts/abjad_alphabet/data/Arab/ar/reading_norm.textproto *)
Definition reading_norm_ar : list rule :=
  [Rule [1661] [1578];
   Rule [1740] [1610]]%N.

Definition rules_ar : lang_rules := LangRules visual_norm_ar visual_norm_nonfinal_ar visual_norm_final_isolated_ar visual_norm_isolated_ar reading_norm_ar.

(** nisaba/scripts/abjad_alphabet/data/Arab/azb/visual_norm.textproto, nisaba/scripts/abjad_alphabet/data/Arab/visual_norm.textproto *)
Definition visual_norm_azb : list rule :=
  [Rule [1607; 1620] [1728];
   Rule [1740; 1627] [1597];
   Rule [8203] [];
   Rule [8205] [];
   Rule [1608; 1615] [1735];
   Rule [1608; 1561] [1735]]%N.

(** nisaba/scripts/abjad_alphabet/data/Arab/azb/visual_norm_nonfinal.textproto *)
Definition visual_norm_nonfinal_azb : list rule :=
  [Rule [1603] [1705];
   Rule [1726] [1607];
   Rule [1610] [1740]]%N.

(** nisaba/scripts/abjad_alphabet/data/Arab/azb/visual_norm_final_isolated.textproto *)
Definition visual_norm_final_isolated_azb : list rule :=
  [Rule [1609] [1740]]%N.

(** nisaba/scripts/abjad_alphabet/data/Arab/azb/visual_norm_isolated.textproto *)
Definition visual_norm_isolated_azb : list rule :=
  [Rule [1729] [1607]]%N.

(** an empty file *)
Definition reading_norm_azb : list rule :=
  []%N.

Definition rules_azb : lang_rules := LangRules visual_norm_azb visual_norm_nonfinal_azb visual_norm_final_isolated_azb visual_norm_isolated_azb reading_norm_azb.

(** nisaba/scripts/abjad_alphabet/data/Arab/bal/visual_norm.textproto, nisaba/scripts/abjad_alphabet/data/Arab/visual_norm.textproto *)
Definition visual_norm_bal : list rule :=
  [Rule [1583; 1557] [1672];
   Rule [1585; 1772] [1586];
   Rule [1587; 1755] [1588];
   Rule [1608; 1772] [1743];
   Rule [1646; 1628] [1576];
   Rule [1722; 1772] [1606];
   Rule [8203] [];
   Rule [8205] [];
   Rule [1608; 1615] [1735];
   Rule [1608; 1561] [1735]]%N.

(** nisaba/scripts/abjad_alphabet/data/Arab/bal/visual_norm_nonfinal.textproto *)
Definition visual_norm_nonfinal_bal : list rule :=
  [Rule [1603] [1705];
   Rule [1610] [1740];
   Rule [1726] [1607]]%N.

(** an empty file *)
Definition visual_norm_final_isolated_bal : list rule :=
  []%N.

(** nisaba/scripts/abjad_alphabet/data/Arab/bal/visual_norm_isolated.textproto *)
Definition visual_norm_isolated_bal : list rule :=
  [Rule [1729] [1607]]%N.

(** nisaba/scripts/abjad_alphabet/data/Arab/bal/reading_norm.textproto *)
Definition reading_norm_bal : list rule :=
  [Rule [1661] [1578]]%N.

Definition rules_bal : lang_rules := LangRules visual_norm_bal visual_norm_nonfinal_bal visual_norm_final_isolated_bal visual_norm_isolated_bal reading_norm_bal.

(** nisaba/scripts/abjad_alphabet/data/Arab/ckb/visual_norm.textproto, nisaba/scripts/abjad_alphabet/data/Arab/visual_norm.textproto *)
Definition visual_norm_ckb : list rule :=
  [Rule [1607; 8204] [1749];
   Rule [1581; 1772] [1582];
   Rule [1583; 1772] [1584];
   Rule [1585; 1772] [1586];
   Rule [1587; 1755] [1588];
   Rule [1589; 1772] [1590];
   Rule [1593; 1772] [1594];
   Rule [1646; 1628] [1576];
   Rule [1646; 1755] [1579];
   Rule [1697; 1772] [1601];
   Rule [1722; 1772] [1606];
   Rule [1740; 1620] [1574];
   Rule [8203] [];
   Rule [8205] [];
   Rule [1608; 1615] [1735];
   Rule [1608; 1561] [1735]]%N.

(** nisaba/scripts/abjad_alphabet/data/Arab/ckb/visual_norm_nonfinal.textproto *)
Definition visual_norm_nonfinal_ckb : list rule :=
  [Rule [1603] [1705];
   Rule [1610] [1740];
   Rule [1726] [1607]]%N.

(** an empty file *)
Definition visual_norm_final_isolated_ckb : list rule :=
  []%N.

(** nisaba/scripts/abjad_alphabet/data/Arab/ckb/visual_norm_isolated.textproto *)
Definition visual_norm_isolated_ckb : list rule :=
  [Rule [1729] [1607]]%N.

(** nisaba/scripts/abjad_alphabet/data/Arab/ckb/reading_norm.textproto *)
Definition reading_norm_ckb : list rule :=
  [Rule [1603] [1705];
   Rule [1706] [1705];
   Rule [1577] [1749];
   Rule [1570] [1575];
   Rule [1571] [1575];
   Rule [1573] [1575];
   Rule [1610] [1740];
   Rule [1746] [1740];
   Rule [1572] [1734];
   Rule [1661] [1578]]%N.

Definition rules_ckb : lang_rules := LangRules visual_norm_ckb visual_norm_nonfinal_ckb visual_norm_final_isolated_ckb visual_norm_isolated_ckb reading_norm_ckb.

(** nisaba/scripts/abjad_alphabet/data/Arab/fa/visual_norm.textproto, nisaba/scripts/abjad_alphabet/data/Arab/visual_norm.textproto *)
Definition visual_norm_fa : list rule :=
  [Rule [1729] [1607];
   Rule [1749] [1607];
   Rule [1607; 1620] [1728];
   Rule [1740; 1620] [1574];
   Rule [1581; 1772] [1582];
   Rule [1583; 1772] [1584];
   Rule [1585; 1755] [1688];
   Rule [1585; 1772] [1586];
   Rule [1587; 1755] [1588];
   Rule [1589; 1772] [1590];
   Rule [1593; 1772] [1594];
   Rule [1646; 1628] [1576];
   Rule [1646; 1755] [1579];
   Rule [1697; 1772] [1601];
   Rule [1703] [1601];
   Rule [1722; 1772] [1606];
   Rule [8203] [];
   Rule [8205] [];
   Rule [1608; 1615] [1735];
   Rule [1608; 1561] [1735]]%N.

(** nisaba/scripts/abjad_alphabet/data/Arab/fa/visual_norm_nonfinal.textproto *)
Definition visual_norm_nonfinal_fa : list rule :=
  [Rule [1603] [1705];
   Rule [1610] [1740]]%N.

(** an empty file *)
Definition visual_norm_final_isolated_fa : list rule :=
  []%N.

(** nisaba/scripts/abjad_alphabet/data/Arab/fa/visual_norm_isolated.textproto *)
Definition visual_norm_isolated_fa : list rule :=
  [Rule [1729] [1607]]%N.

(** nisaba/scripts/abjad_alphabet/data/Arab/fa/reading_norm.textproto *)
Definition reading_norm_fa : list rule :=
  [Rule [1610] [1740];
   Rule [1731] [1577];
   Rule [1603] [1705];
   Rule [1682] [1585];
   Rule [1572] [1608];
   Rule [1661] [1578]]%N.

Definition rules_fa : lang_rules := LangRules visual_norm_fa visual_norm_nonfinal_fa visual_norm_final_isolated_fa visual_norm_isolated_fa reading_norm_fa.

(** nisaba/scripts/abjad_alphabet/data/Arab/ks/visual_norm.textproto, nisaba/scripts/abjad_alphabet/data/Arab/visual_norm.textproto *)
Definition visual_norm_ks : list rule :=
  [Rule [1651] [1575; 1631];
   Rule [1581; 1620] [1665];
   Rule [1585; 1620] [1900];
   Rule [1608; 1626] [1734];
   Rule [1740; 1620] [1574];
   Rule [1740; 1626] [1742];
   Rule [1646; 1628] [1576];
   Rule [1646; 1557] [1657];
   Rule [1646; 1755] [1579];
   Rule [1581; 1772] [1582];
   Rule [1583; 1557] [1672];
   Rule [1583; 1772] [1584];
   Rule [1585; 1557] [1681];
   Rule [1585; 1772] [1586];
   Rule [1585; 1755] [1688];
   Rule [1587; 1755] [1588];
   Rule [1589; 1772] [1590];
   Rule [1593; 1772] [1594];
   Rule [1697; 1772] [1601];
   Rule [1722; 1772] [1606];
   Rule [1571] [1650];
   Rule [1573] [1575; 1631];
   Rule [1608; 1615] [1735];
   Rule [1609; 1626] [1742];
   Rule [1703] [1601];
   Rule [8203] [];
   Rule [8205] [];
   Rule [1608; 1615] [1735];
   Rule [1608; 1561] [1735]]%N.

(** nisaba/scripts/abjad_alphabet/data/Arab/ks/visual_norm_nonfinal.textproto *)
Definition visual_norm_nonfinal_ks : list rule :=
  [Rule [1603] [1705];
   Rule [1610] [1740];
   Rule [1607] [1726]]%N.

(** an empty file *)
Definition visual_norm_final_isolated_ks : list rule :=
  []%N.

(** an empty file *)
Definition visual_norm_isolated_ks : list rule :=
  []%N.

(** nisaba/scripts/abjad_alphabet/data/Arab/ks/reading_norm.textproto *)
Definition reading_norm_ks : list rule :=
  [Rule [1577] [1731];
   Rule [1646; 1770] [1576];
   Rule [1741] [1568];
   Rule [1733] [1732];
   Rule [1609] [1740; 1648];
   Rule [1603] [1705];
   Rule [1610] [1740]]%N.

Definition rules_ks : lang_rules := LangRules visual_norm_ks visual_norm_nonfinal_ks visual_norm_final_isolated_ks visual_norm_isolated_ks reading_norm_ks.

(** nisaba/scripts/abjad_alphabet/data/Arab/ms/visual_norm.textproto, nisaba/scripts/abjad_alphabet/data/Arab/visual_norm.textproto *)
Definition visual_norm_ms : list rule :=
  [Rule [8203] [];
   Rule [8205] [];
   Rule [1608; 1615] [1735];
   Rule [1608; 1561] [1735]]%N.

(** nisaba/scripts/abjad_alphabet/data/Arab/ms/visual_norm_nonfinal.textproto *)
Definition visual_norm_nonfinal_ms : list rule :=
  [Rule [1603] [1705];
   Rule [1726] [1607];
   Rule [1740] [1610];
   Rule [1662] [1725]]%N.

(** nisaba/scripts/abjad_alphabet/data/Arab/ms/visual_norm_final_isolated.textproto *)
Definition visual_norm_final_isolated_ms : list rule :=
  []%N.

(** an empty file *)
Definition visual_norm_isolated_ms : list rule :=
  []%N.

(** an empty file *)
Definition reading_norm_ms : list rule :=
  []%N.

Definition rules_ms : lang_rules := LangRules visual_norm_ms visual_norm_nonfinal_ms visual_norm_final_isolated_ms visual_norm_isolated_ms reading_norm_ms.

(** nisaba/scripts/abjad_alphabet/data/Arab/pa/visual_norm.textproto, nisaba/scripts/abjad_alphabet/data/Arab/visual_norm.textproto *)
Definition visual_norm_pa : list rule :=
  [Rule [1606; 1557] [1896];
   Rule [1607; 1620] [1730];
   Rule [1650] [1571];
   Rule [1651] [1573];
   Rule [1703] [1601];
   Rule [1646; 1628] [1576];
   Rule [1581; 1772] [1582];
   Rule [1583; 1772] [1584];
   Rule [1583; 1557] [1672];
   Rule [1585; 1772] [1586];
   Rule [1585; 1557] [1681];
   Rule [1585; 1755] [1688];
   Rule [1587; 1755] [1588];
   Rule [1593; 1772] [1594];
   Rule [1697; 1772] [1601];
   Rule [1722; 1772] [1606];
   Rule [1740; 1620] [1574];
   Rule [8203] [];
   Rule [8205] [];
   Rule [1608; 1615] [1735];
   Rule [1608; 1561] [1735]]%N.

(** nisaba/scripts/abjad_alphabet/data/Arab/pa/visual_norm_nonfinal.textproto *)
Definition visual_norm_nonfinal_pa : list rule :=
  [Rule [1603] [1705];
   Rule [1607] [1726];
   Rule [1610] [1740];
   Rule [1722] [1606];
   Rule [1723] [1657]]%N.

(** nisaba/scripts/abjad_alphabet/data/Arab/pa/visual_norm_final_isolated.textproto *)
Definition visual_norm_final_isolated_pa : list rule :=
  [Rule [1607] [1729];
   Rule [1609] [1740]]%N.

(** nisaba/scripts/abjad_alphabet/data/Arab/pa/visual_norm_isolated.textproto *)
Definition visual_norm_isolated_pa : list rule :=
  [Rule [1577] [1731];
   Rule [1730] [1607; 1620]]%N.

(** nisaba/scripts/abjad_alphabet/data/Arab/pa/reading_norm.textproto *)
Definition reading_norm_pa : list rule :=
  [Rule [1610] [1740]]%N.

Definition rules_pa : lang_rules := LangRules visual_norm_pa visual_norm_nonfinal_pa visual_norm_final_isolated_pa visual_norm_isolated_pa reading_norm_pa.

(** nisaba/scripts/abjad_alphabet/data/Arab/prs/visual_norm.textproto, nisaba/scripts/abjad_alphabet/data/Arab/visual_norm.textproto *)
Definition visual_norm_prs : list rule :=
  [Rule [1581; 1772] [1582];
   Rule [1583; 1772] [1584];
   Rule [1585; 1755] [1688];
   Rule [1585; 1772] [1586];
   Rule [1587; 1755] [1588];
   Rule [1589; 1772] [1590];
   Rule [1593; 1772] [1594];
   Rule [1607; 1620] [1730];
   Rule [1646; 1628] [1576];
   Rule [1646; 1755] [1579];
   Rule [1697; 1772] [1601];
   Rule [1703] [1601];
   Rule [1722; 1772] [1606];
   Rule [1740; 1620] [1574];
   Rule [8203] [];
   Rule [8205] [];
   Rule [1608; 1615] [1735];
   Rule [1608; 1561] [1735]]%N.

(** nisaba/scripts/abjad_alphabet/data/Arab/prs/visual_norm_nonfinal.textproto *)
Definition visual_norm_nonfinal_prs : list rule :=
  [Rule [1603] [1705];
   Rule [1610] [1740]]%N.

(** an empty file *)
Definition visual_norm_final_isolated_prs : list rule :=
  []%N.

(** nisaba/scripts/abjad_alphabet/data/Arab/prs/visual_norm_isolated.textproto *)
Definition visual_norm_isolated_prs : list rule :=
  [Rule [1607] [1729];
   Rule [1729] [1607]]%N.

(** nisaba/scripts/abjad_alphabet/data/Arab/prs/reading_norm.textproto *)
Definition reading_norm_prs : list rule :=
  [Rule [1661] [1578]]%N.

Definition rules_prs : lang_rules := LangRules visual_norm_prs visual_norm_nonfinal_prs visual_norm_final_isolated_prs visual_norm_isolated_prs reading_norm_prs.

(** nisaba/scripts/abjad_alphabet/data/Arab/ps/visual_norm.textproto, nisaba/scripts/abjad_alphabet/data/Arab/visual_norm.textproto *)
Definition visual_norm_ps : list rule :=
  [Rule [1581; 1620] [1665];
   Rule [1581; 1755] [1669];
   Rule [1581; 1772] [1582];
   Rule [1583; 1772] [1584];
   Rule [1585; 1755] [1688];
   Rule [1585; 1772] [1586];
   Rule [1587; 1755] [1588];
   Rule [1589; 1772] [1590];
   Rule [1593; 1772] [1594];
   Rule [1646; 1628] [1576];
   Rule [1697; 1772] [1601];
   Rule [1722; 1772] [1606];
   Rule [1740; 1620] [1574];
   Rule [8203] [];
   Rule [8205] [];
   Rule [1608; 1615] [1735];
   Rule [1608; 1561] [1735]]%N.

(** an empty file *)
Definition visual_norm_nonfinal_ps : list rule :=
  []%N.

(** an empty file *)
Definition visual_norm_final_isolated_ps : list rule :=
  []%N.

(** nisaba/scripts/abjad_alphabet/data/Arab/ps/visual_norm_isolated.textproto *)
Definition visual_norm_isolated_ps : list rule :=
  [Rule [1729] [1607]]%N.

(** nisaba/scripts/abjad_alphabet/data/Arab/ps/reading_norm.textproto *)
Definition reading_norm_ps : list rule :=
  [Rule [1740] [1610]]%N.

Definition rules_ps : lang_rules := LangRules visual_norm_ps visual_norm_nonfinal_ps visual_norm_final_isolated_ps visual_norm_isolated_ps reading_norm_ps.

(** nisaba/scripts/abjad_alphabet/data/Arab/sd/visual_norm.textproto, nisaba/scripts/abjad_alphabet/data/Arab/visual_norm.textproto *)
Definition visual_norm_sd : list rule :=
  [Rule [1646; 1755] [1579];
   Rule [1583; 1557] [1672];
   Rule [1583; 1772] [1584];
   Rule [1585; 1772] [1586];
   Rule [1585; 1755] [1688];
   Rule [1587; 1755] [1588];
   Rule [1589; 1772] [1590];
   Rule [1697; 1772] [1601];
   Rule [1722; 1772] [1606];
   Rule [1722; 1557] [1723];
   Rule [1740; 1620] [1574];
   Rule [1650] [1571];
   Rule [1651] [1573];
   Rule [8203] [];
   Rule [8205] [];
   Rule [1608; 1615] [1735];
   Rule [1608; 1561] [1735]]%N.

(** nisaba/scripts/abjad_alphabet/data/Arab/sd/visual_norm_nonfinal.textproto *)
Definition visual_norm_nonfinal_sd : list rule :=
  [Rule [1603] [1705];
   Rule [1607] [1726];
   Rule [1740] [1610];
   Rule [1703] [1601];
   Rule [1722] [1606]]%N.

(** an empty file *)
Definition visual_norm_final_isolated_sd : list rule :=
  []%N.

(** nisaba/scripts/abjad_alphabet/data/Arab/sd/visual_norm_isolated.textproto *)
Definition visual_norm_isolated_sd : list rule :=
  [Rule [1607] [1729];
   Rule [1577] [1731]]%N.

(** nisaba/scripts/abjad_alphabet/data/Arab/sd/reading_norm.textproto *)
Definition reading_norm_sd : list rule :=
  [Rule [1577] [1731];
   Rule [1609] [1610; 1648];
   Rule [1740] [1610];
   Rule [1607] [1729]]%N.

Definition rules_sd : lang_rules := LangRules visual_norm_sd visual_norm_nonfinal_sd visual_norm_final_isolated_sd visual_norm_isolated_sd reading_norm_sd.

(** nisaba/scripts/abjad_alphabet/data/Arab/ug/visual_norm.textproto, nisaba/scripts/abjad_alphabet/data/Arab/visual_norm.textproto *)
Definition visual_norm_ug : list rule :=
  [Rule [1608; 1648] [1736];
   Rule [1703] [1601];
   Rule [1740; 1620] [1574];
   Rule [1593; 1772] [1594];
   Rule [1581; 1772] [1582];
   Rule [1583; 1772] [1584];
   Rule [1585; 1772] [1586];
   Rule [1697; 1772] [1601];
   Rule [1722; 1772] [1606];
   Rule [1587; 1755] [1588];
   Rule [1585; 1755] [1688];
   Rule [1603; 1755] [1709];
   Rule [1608; 1755] [1739];
   Rule [1608; 1626] [1734];
   Rule [1646; 1628] [1576];
   Rule [8203] [];
   Rule [8205] [];
   Rule [1608; 1615] [1735];
   Rule [1608; 1561] [1735]]%N.

(** nisaba/scripts/abjad_alphabet/data/Arab/ug/visual_norm_nonfinal.textproto *)
Definition visual_norm_nonfinal_ug : list rule :=
  [Rule [1705] [1603];
   Rule [1607] [1726];
   Rule [1740] [1610]]%N.

(** nisaba/scripts/abjad_alphabet/data/Arab/ug/visual_norm_final_isolated.textproto *)
Definition visual_norm_final_isolated_ug : list rule :=
  [Rule [1607] [1749]]%N.

(** nisaba/scripts/abjad_alphabet/data/Arab/ug/visual_norm_isolated.textproto *)
Definition visual_norm_isolated_ug : list rule :=
  [Rule [1729] [1749]]%N.

(** nisaba/scripts/abjad_alphabet/data/Arab/ug/reading_norm.textproto *)
Definition reading_norm_ug : list rule :=
  [Rule [1740] [1610]]%N.

Definition rules_ug : lang_rules := LangRules visual_norm_ug visual_norm_nonfinal_ug visual_norm_final_isolated_ug visual_norm_isolated_ug reading_norm_ug.

(** nisaba/scripts/abjad_alphabet/data/Arab/ur/visual_norm.textproto, nisaba/scripts/abjad_alphabet/data/Arab/visual_norm.textproto *)
Definition visual_norm_ur : list rule :=
  [Rule [1728] [1730];
   Rule [1740; 1620] [1574];
   Rule [1650] [1571];
   Rule [1651] [1573];
   Rule [1646; 1628] [1576];
   Rule [1581; 1772] [1582];
   Rule [1583; 1772] [1584];
   Rule [1585; 1772] [1586];
   Rule [1587; 1755] [1588];
   Rule [1589; 1772] [1590];
   Rule [1593; 1772] [1594];
   Rule [1697; 1772] [1601];
   Rule [1722; 1772] [1606];
   Rule [1583; 1557] [1672];
   Rule [1585; 1557] [1681];
   Rule [1585; 1755] [1688];
   Rule [1607; 1620] [1730];
   Rule [1703] [1601];
   Rule [8203] [];
   Rule [8205] [];
   Rule [1608; 1615] [1735];
   Rule [1608; 1561] [1735]]%N.

(** nisaba/scripts/abjad_alphabet/data/Arab/ur/visual_norm_nonfinal.textproto *)
Definition visual_norm_nonfinal_ur : list rule :=
  [Rule [1603] [1705];
   Rule [1607] [1726];
   Rule [1610] [1740];
   Rule [1703] [1601];
   Rule [1723] [1657];
   Rule [1722] [1606]]%N.

(** nisaba/scripts/abjad_alphabet/data/Arab/ur/visual_norm_final_isolated.textproto *)
Definition visual_norm_final_isolated_ur : list rule :=
  [Rule [1609] [1740]]%N.

(** nisaba/scripts/abjad_alphabet/data/Arab/ur/visual_norm_isolated.textproto *)
Definition visual_norm_isolated_ur : list rule :=
  [Rule [1607] [1729];
   Rule [1577] [1731];
   Rule [1728] [1730];
   Rule [1607; 1620] [1730]]%N.

(** nisaba/scripts/abjad_alphabet/data/Arab/ur/reading_norm.textproto *)
Definition reading_norm_ur : list rule :=
  [Rule [1577] [1731];
   Rule [1650] [1571];
   Rule [1651] [1573];
   Rule [1610] [1740]]%N.

Definition rules_ur : lang_rules := LangRules visual_norm_ur visual_norm_nonfinal_ur visual_norm_final_isolated_ur visual_norm_isolated_ur reading_norm_ur.

(** nisaba/scripts/abjad_alphabet/data/Arab/uz/visual_norm.textproto, nisaba/scripts/abjad_alphabet/data/Arab/visual_norm.textproto *)
Definition visual_norm_uz : list rule :=
  [Rule [1581; 1772] [1582];
   Rule [1585; 1772] [1586];
   Rule [1587; 1755] [1588];
   Rule [1603; 1755] [1709];
   Rule [1608; 1615] [1735];
   Rule [1608; 1755] [1739];
   Rule [1646; 1628] [1576];
   Rule [1697; 1772] [1601];
   Rule [1722; 1772] [1606];
   Rule [1740; 1620] [1574];
   Rule [8203] [];
   Rule [8205] [];
   Rule [1608; 1615] [1735];
   Rule [1608; 1561] [1735]]%N.

(** nisaba/scripts/abjad_alphabet/data/Arab/uz/visual_norm_nonfinal.textproto *)
Definition visual_norm_nonfinal_uz : list rule :=
  [Rule [1705] [1603];
   Rule [1726] [1607];
   Rule [1740] [1610];
   Rule [1705] [1603];
   Rule [1726] [1607];
   Rule [1740] [1610]]%N.

(** an empty file *)
Definition visual_norm_final_isolated_uz : list rule :=
  []%N.

(** nisaba/scripts/abjad_alphabet/data/Arab/uz/visual_norm_isolated.textproto *)
Definition visual_norm_isolated_uz : list rule :=
  [Rule [1729] [1607]]%N.

(** an empty file *)
Definition reading_norm_uz : list rule :=
  []%N.

Definition rules_uz : lang_rules := LangRules visual_norm_uz visual_norm_nonfinal_uz visual_norm_final_isolated_uz visual_norm_isolated_uz reading_norm_uz.

(** The languages: abjad_alphabet/util.py, lines 29-30 *)
Definition arab_langs : list lang_rules :=
  [rules_ar; rules_azb; rules_bal; rules_ckb; rules_fa; rules_ks; rules_ms; rules_pa; rules_prs; rules_ps; rules_sd; rules_ug; rules_ur; rules_uz].
