(** The letters of Arabic script and their languages, and the characters with these names in
    Python's unicodedata.  Generated by rocq/gen/genletters.py, do not edit. *)
From Coq Require Import String Ascii.
From Verif Require Import Base DataModel LetterModel.
Local Open Scope list_scope.
Local Open Scope N_scope.

Definition codes (s : string) : str := map N_of_ascii (list_ascii_of_string s).
Definition entry_of (names : list string) (r : str) (ls rs : list string) : entry :=
  Entry {| uname := map codes names; raw := r; to_uname := []; to_raw := [] |}
    (map codes ls) (map codes rs).

(** nisaba/scripts/abjad_alphabet/data/Arab/letter_languages.textproto *)
Definition letter_prefixes : list str := map codes ["ARABIC"; "ARABIC LETTER"]%string.
Definition letter_entries : list entry :=
  [entry_of ["SMALL HIGH TAH"] [] ["ur"] [];
   entry_of ["KASHMIRI YEH"] [1568] ["ks"] [];
   entry_of ["HAMZA"] [1569] ["ar"; "bal"; "fa"; "ms"; "pa"; "prs"; "sd"; "ur"; "uz"] [];
   entry_of ["ALEF WITH MADDA ABOVE"] [1570] ["ar"; "az"; "bal"; "fa"; "ks"; "ku"; "ms"; "pa"; "prs"; "ps"; "sd"; "ur"] [];
   entry_of ["ALEF WITH HAMZA ABOVE"] [1571] ["ar"; "fa"; "ks"; "ms"; "pa"; "prs"; "ps"; "sd"; "trw"; "ur"] [];
   entry_of ["WAW WITH HAMZA ABOVE"] [1572] ["ar"; "az"; "fa"; "ks"; "ms"; "pa"; "prs"; "sd"; "ur"] [];
   entry_of ["ALEF WITH HAMZA BELOW"] [1573] ["ar"; "ks"; "ms"; "pa"; "ur"] [];
   entry_of ["YEH WITH HAMZA ABOVE"] [1574] ["ar"; "az"; "ckb"; "fa"; "ku"; "ms"; "pa"; "prs"; "ps"; "sd"; "ug"; "ur"; "uz"] [];
   entry_of ["ALEF"] [1575] ["ar"; "az"; "bal"; "ckb"; "fa"; "ks"; "ku"; "ms"; "pa"; "prs"; "ps"; "sd"; "ug"; "ur"; "uz"] [];
   entry_of ["BEH"] [1576] ["ar"; "az"; "bal"; "ckb"; "fa"; "ks"; "ku"; "ms"; "pa"; "prs"; "ps"; "sd"; "ug"; "ur"; "uz"] [];
   entry_of ["TEH MARBUTA"] [1577] ["ar"; "fa"; "ms"; "pa"; "prs"; "ug"; "ur"] [];
   entry_of ["TEH"] [1578] ["ar"; "az"; "bal"; "ckb"; "fa"; "ks"; "ku"; "ms"; "pa"; "prs"; "ps"; "sd"; "ug"; "ur"; "uz"] [];
   entry_of ["THEH"] [1579] ["ar"; "az"; "bal"; "fa"; "ks"; "ms"; "pa"; "prs"; "ps"; "sd"; "ur"] [];
   entry_of ["JEEM"] [1580] ["ar"; "az"; "bal"; "ckb"; "fa"; "ks"; "ku"; "ms"; "pa"; "prs"; "ps"; "sd"; "ug"; "ur"; "uz"] [];
   entry_of ["HAH"] [1581] ["ar"; "az"; "bal"; "ckb"; "fa"; "ks"; "ku"; "ms"; "pa"; "prs"; "ps"; "sd"; "ur"; "uz"] [];
   entry_of ["KHAH"] [1582] ["ar"; "az"; "bal"; "ckb"; "fa"; "ks"; "ku"; "ms"; "pa"; "prs"; "ps"; "sd"; "ug"; "ur"; "uz"] [];
   entry_of ["DAL"] [1583] ["ar"; "az"; "bal"; "ckb"; "fa"; "ks"; "ku"; "ms"; "pa"; "prs"; "ps"; "sd"; "ug"; "ur"; "uz"] [];
   entry_of ["THAL"] [1584] ["ar"; "az"; "bal"; "fa"; "ks"; "ms"; "pa"; "prs"; "ps"; "sd"; "ug"; "ur"] [];
   entry_of ["REH"] [1585] ["ar"; "az"; "bal"; "ckb"; "fa"; "ks"; "ku"; "ms"; "pa"; "prs"; "ps"; "sd"; "ug"; "ur"; "uz"] [];
   entry_of ["ZAIN"] [1586] ["ar"; "az"; "bal"; "ckb"; "fa"; "ks"; "ku"; "ms"; "pa"; "prs"; "ps"; "sd"; "ug"; "ur"; "uz"] [];
   entry_of ["SEEN"] [1587] ["ar"; "az"; "bal"; "ckb"; "fa"; "ks"; "ku"; "ms"; "pa"; "prs"; "ps"; "sd"; "ug"; "ur"; "uz"] [];
   entry_of ["SHEEN"] [1588] ["ar"; "az"; "bal"; "ckb"; "fa"; "ks"; "ku"; "ms"; "pa"; "prs"; "ps"; "sd"; "ug"; "ur"; "uz"] [];
   entry_of ["SAD"] [1589] ["ar"; "az"; "bal"; "fa"; "ks"; "ms"; "pa"; "prs"; "ps"; "sd"; "ur"] [];
   entry_of ["DAD"] [1590] ["ar"; "az"; "bal"; "fa"; "ks"; "ms"; "pa"; "prs"; "ps"; "sd"; "ur"] [];
   entry_of ["TAH"] [1591] ["ar"; "az"; "bal"; "fa"; "ks"; "ms"; "pa"; "prs"; "ps"; "sd"; "ur"] [];
   entry_of ["ZAH"] [1592] ["ar"; "az"; "bal"; "fa"; "ks"; "ms"; "pa"; "prs"; "ps"; "sd"; "ur"] [];
   entry_of ["AIN"] [1593] ["ar"; "bal"; "ckb"; "fa"; "ks"; "ku"; "ms"; "pa"; "prs"; "ps"; "sd"; "ug"; "ur"] [];
   entry_of ["GHAIN"] [1594] ["ar"; "az"; "bal"; "ckb"; "fa"; "ks"; "ku"; "ms"; "pa"; "prs"; "ps"; "sd"; "ug"; "ur"; "uz"] [];
   entry_of ["FARSI YEH WITH INVERTED V"] [1597] ["az"] [];
   entry_of ["FEH"] [1601] ["ar"; "az"; "bal"; "ckb"; "fa"; "ks"; "ku"; "ms"; "pa"; "prs"; "ps"; "sd"; "ug"; "ur"; "uz"] [];
   entry_of ["QAF"] [1602] ["ar"; "az"; "bal"; "ckb"; "fa"; "ks"; "ku"; "ms"; "pa"; "prs"; "ps"; "sd"; "ug"; "ur"; "uz"] [];
   entry_of ["KAF"] [1603] ["ar"; "ps"; "ug"; "ur"; "uz"] [];
   entry_of ["LAM"] [1604] ["ar"; "az"; "bal"; "ckb"; "fa"; "ks"; "ku"; "ms"; "pa"; "prs"; "ps"; "sd"; "ug"; "ur"; "uz"] [];
   entry_of ["MEEM"] [1605] ["ar"; "az"; "bal"; "ckb"; "fa"; "ks"; "ku"; "ms"; "pa"; "prs"; "ps"; "sd"; "ug"; "ur"; "uz"] [];
   entry_of ["NOON"] [1606] ["ar"; "az"; "bal"; "ckb"; "fa"; "ks"; "ku"; "ms"; "pa"; "prs"; "ps"; "sd"; "ug"; "ur"; "uz"] [];
   entry_of ["HEH"] [1607] ["ar"; "az"; "bal"; "ckb"; "fa"; "ks"; "ku"; "ms"; "pa"; "prs"; "ps"; "sd"; "ur"; "uz"] [];
   entry_of ["WAW"] [1608] ["ar"; "az"; "bal"; "ckb"; "fa"; "ks"; "ku"; "ms"; "pa"; "prs"; "ps"; "sd"; "ug"; "ur"; "uz"] [];
   entry_of ["ALEF MAKSURA"] [1609] ["ar"; "bal"; "ckb"; "fa"; "ks"; "ku"; "ms"; "pa"; "prs"; "sd"; "ug"; "ur"; "uz"] [];
   entry_of ["YEH"] [1610] ["ar"; "bal"; "ks"; "ms"; "pa"; "ps"; "sd"; "ug"; "ur"; "uz"] [];
   entry_of ["FATHATAN"] [1611] ["ar"; "fa"; "pa"; "prs"; "ur"] [];
   entry_of ["DAMMATAN"] [1612] ["ar"; "fa"; "pa"; "prs"; "ur"] [];
   entry_of ["KASRATAN"] [1613] ["ar"; "fa"; "pa"; "prs"; "ur"] [];
   entry_of ["FATHA"] [1614] ["ar"; "az"; "bal"; "fa"; "ks"; "ms"; "pa"; "prs"; "ps"; "sd"; "ug"; "ur"] [];
   entry_of ["DAMMA"] [1615] ["ar"; "az"; "bal"; "fa"; "ks"; "ms"; "pa"; "prs"; "ps"; "sd"; "ug"; "ur"] [];
   entry_of ["KASRA"] [1616] ["ar"; "az"; "bal"; "fa"; "ks"; "ms"; "pa"; "prs"; "ps"; "sd"; "ug"; "ur"] [];
   entry_of ["SHADDA"] [1617] ["ar"; "az"; "bal"; "fa"; "ks"; "ms"; "pa"; "prs"; "ps"; "sd"; "ur"] [];
   entry_of ["SUKUN"] [1618] ["ar"; "az"; "bal"; "fa"; "ks"; "ms"; "pa"; "prs"; "ps"; "ur"] [];
   entry_of ["MADDAH ABOVE"] [] ["ar"; "az"; "bal"; "fa"; "ks"; "ms"; "pa"; "prs"; "ps"; "sd"; "ur"] [];
   entry_of ["HAMZA ABOVE"] [] ["ar"; "fa"; "ks"; "pa"; "prs"; "sd"; "ug"; "ur"] [];
   entry_of ["HAMZA BELOW"] [1621] ["ar"; "fa"; "ks"; "pa"; "prs"; "sd"; "ur"] [];
   entry_of ["SUBSCRIPT ALEF"] [1622] ["ar"; "ks"; "pa"; "ur"] [];
   entry_of ["INVERTED DAMMA"] [1623] ["ar"; "ks"; "pa"; "sd"; "ur"] [];
   entry_of ["MARK NOON GHUNNA"] [1624] ["ml"] [];
   entry_of ["ZWARAKAY"] [1625] ["ku"; "ps"] [];
   entry_of ["VOWEL SIGN SMALL V ABOVE"] [] ["bal"; "ks"] [];
   entry_of ["VOWEL SIGN INVERTED SMALL V ABOVE"] [1627] ["tk"] [];
   entry_of ["VOWEL SIGN DOT BELOW"] [1628] ["ta"] [];
   entry_of ["WAVY HAMZA BELOW"] [1631] ["ks"] [];
   entry_of ["DOTLESS BEH"] [1646] ["ks"] [];
   entry_of ["SUPERSCRIPT ALEF"] [1648] ["ar"; "bal"; "fa"; "pa"; "ur"] [];
   entry_of ["ALEF WASLA"] [1649] ["ar"; "az"; "tk"] [];
   entry_of ["ALEF WITH WAVY HAMZA ABOVE"] [1650] ["bal"; "ks"; "trw"] [];
   entry_of ["ALEF WITH WAVY HAMZA BELOW"] [1651] ["ks"] [];
   entry_of ["HIGH HAMZA"] [1652] ["kk"] [];
   entry_of ["HIGH HAMZA ALEF"] [1653] ["kk"] [];
   entry_of ["HIGH HAMZA WAW"] [1654] ["kk"; "ku"] [];
   entry_of ["U WITH HAMZA ABOVE"] [1655] ["kk"] [];
   entry_of ["HIGH HAMZA YEH"] [1656] ["kk"; "ps"] [];
   entry_of ["TTEH"] [1657] ["bal"; "ks"; "pa"; "ur"] [];
   entry_of ["TTEHEH"] [1658] ["sd"] [];
   entry_of ["BEEH"] [1659] ["sd"; "skr"] [];
   entry_of ["TEH WITH RING"] [1660] ["bal"; "ps"] [];
   entry_of ["TEH WITH THREE DOTS ABOVE DOWNWARDS"] [1661] ["sd"] [];
   entry_of ["PEH"] [1662] ["az"; "bal"; "ckb"; "fa"; "ks"; "ku"; "pa"; "prs"; "ps"; "sd"; "ug"; "ur"; "uz"] [];
   entry_of ["TEHEH"] [1663] ["bal"; "sd"] [];
   entry_of ["BEHEH"] [1664] ["sd"] [];
   entry_of ["HAH WITH HAMZA ABOVE"] [1665] ["khw"; "ps"] [];
   entry_of ["NYEH"] [1667] ["sd"; "wo"] ["TD"];
   entry_of ["DYEH"] [1668] ["gwc"; "mnk"; "sd"; "wo"] ["TD"];
   entry_of ["HAH WITH THREE DOTS ABOVE"] [1669] ["bsk"; "gwc"; "khw"; "mvy"; "ps"; "trw"; "ug"; "wo"] [];
   entry_of ["TCHEH"] [1670] ["az"; "bal"; "ckb"; "fa"; "ks"; "ku"; "ms"; "pa"; "prs"; "ps"; "sd"; "ug"; "ur"; "uz"] [];
   entry_of ["TCHEHEH"] [1671] ["scl"; "sd"; "trw"] [];
   entry_of ["DDAL"] [1672] ["bal"; "ks"; "pa"; "ps"; "ur"] [];
   entry_of ["DAL WITH RING"] [1673] ["bal"; "ps"] [];
   entry_of ["DAL WITH DOT BELOW"] [1674] ["sd"] ["TD"];
   entry_of ["DAL WITH DOT BELOW AND SMALL TAH"] [1675] ["pnb"; "skr"] [];
   entry_of ["DAHAL"] [1676] ["mnk"; "sd"] [];
   entry_of ["DDAHAL"] [1677] ["ar"; "sd"; "ta"] [];
   entry_of ["DAL WITH THREE DOTS ABOVE DOWNWARDS"] [1679] ["sd"] [];
   entry_of ["RREH"] [1681] ["bal"; "ks"; "pa"; "ur"] [];
   entry_of ["REH WITH RING"] [1683] ["bal"; "ps"] [];
   entry_of ["REH WITH DOT BELOW"] [1684] ["bal"; "ml"; "ta"] [];
   entry_of ["REH WITH SMALL V BELOW"] [1685] ["ckb"; "ku"] [];
   entry_of ["REH WITH DOT BELOW AND DOT ABOVE"] [1686] ["ps"; "wbl"] [];
   entry_of ["REH WITH TWO DOTS ABOVE"] [1687] ["lez"; "ml"] ["TD"];
   entry_of ["JEH"] [1688] ["az"; "bal"; "ckb"; "fa"; "ks"; "ku"; "pa"; "prs"; "ps"; "skr"; "ug"; "ur"; "uz"] [];
   entry_of ["REH WITH FOUR DOTS ABOVE"] [1689] ["sd"; "trw"] [];
   entry_of ["SEEN WITH DOT BELOW AND DOT ABOVE"] [1690] ["ps"; "wbl"] [];
   entry_of ["SEEN WITH THREE DOTS BELOW AND THREE DOTS ABOVE"] [1692] ["ar"] [];
   entry_of ["TAH WITH THREE DOTS ABOVE"] [1695] ["ha"; "ms"; "om"] [];
   entry_of ["AIN WITH THREE DOTS ABOVE"] [1696] ["khw"; "ms"] ["TD"];
   entry_of ["DOTLESS FEH"] [1697] ["ady"] [];
   entry_of ["FEH WITH DOT MOVED BELOW"] [1698] ["ff"; "ha"] [];
   entry_of ["FEH WITH DOT BELOW"] [1699] ["ff"; "ku"] [];
   entry_of ["VEH"] [1700] ["ar"; "ckb"; "ku"; "ms"] [];
   entry_of ["FEH WITH THREE DOTS BELOW"] [1701] ["ar"] [];
   entry_of ["PEHEH"] [1702] ["sd"] [];
   entry_of ["QAF WITH DOT ABOVE"] [1703] ["ar"; "bm"; "ha"; "mfg"; "tmh"] [];
   entry_of ["QAF WITH THREE DOTS ABOVE"] [1704] ["aao"; "aeb"; "ar"; "arq"; "ary"; "ayl"; "khw"; "mey"] [];
   entry_of ["KEHEH"] [1705] ["ar"; "az"; "bal"; "ckb"; "fa"; "ks"; "ku"; "ms"; "pa"; "prs"; "ps"; "sd"; "ur"] [];
   entry_of ["SWASH KAF"] [1706] ["sd"] [];
   entry_of ["KAF WITH RING"] [1707] ["ps"] [];
   entry_of ["NG"] [1709] ["ar"; "kk"; "ky"; "ota"; "ug"; "uz"; "wbl"] [];
   entry_of ["KAF WITH THREE DOTS BELOW"] [1710] [] ["TD"];
   entry_of ["GAF"] [1711] ["ar"; "az"; "bal"; "ckb"; "fa"; "ks"; "ku"; "pa"; "prs"; "ps"; "sd"; "ug"; "ur"; "uz"; "wbl"] [];
   entry_of ["GAF WITH RING"] [1712] ["skr"] [];
   entry_of ["NGOEH"] [1713] ["sd"] [];
   entry_of ["GUEH"] [1715] ["sd"] [];
   entry_of ["GAF WITH THREE DOTS ABOVE"] [1716] ["ar"; "az"] [];
   entry_of ["LAM WITH SMALL V"] [1717] ["aee"; "ckb"; "glh"; "khw"; "ku"; "psh"; "psi"] [];
   entry_of ["NOON WITH DOT BELOW"] [1721] ["ml"; "ta"] [];
   entry_of ["NOON GHUNNA"] [1722] ["bal"; "ks"; "pa"; "ps"; "ur"] [];
   entry_of ["RNOON"] [1723] ["bal"; "hnd"; "hno"; "sd"; "skr"] [];
   entry_of ["NOON WITH RING"] [1724] ["ps"] [];
   entry_of ["NOON WITH THREE DOTS ABOVE"] [1725] ["ms"] [];
   entry_of ["HEH DOACHASHMEE"] [1726] ["bal"; "ckb"; "ks"; "ku"; "pa"; "sd"; "skr"; "ug"; "ur"; "uz"] [];
   entry_of ["TCHEH WITH DOT ABOVE"] [1727] ["ml"; "wo"] [];
   entry_of ["HEH WITH YEH ABOVE"] [1728] ["ckb"; "ku"; "ps"] ["TD"];
   entry_of ["HEH GOAL"] [1729] ["bal"; "ks"; "pa"; "sd"; "skr"; "ur"] [];
   entry_of ["HEH GOAL WITH HAMZA ABOVE"] [1730] ["ks"; "pa"; "ur"] [];
   entry_of ["TEH MARBUTA GOAL"] [1731] ["pa"; "ur"] [];
   entry_of ["WAW WITH RING"] [1732] ["ks"] [];
   entry_of ["KIRGHIZ OE"] [1733] ["ky"] [];
   entry_of ["OE"] [1734] ["az"; "bej"; "ckb"; "kk"; "ks"; "ku"; "ug"] [];
   entry_of ["U"] [1735] ["az"; "kk"; "ug"; "uz"] [];
   entry_of ["YU"] [1736] ["ug"] [];
   entry_of ["WAW WITH TWO DOTS ABOVE"] [1738] ["ckb"; "ku"] [];
   entry_of ["VE"] [1739] ["kk"; "ky"; "ug"; "uz"] [];
   entry_of ["FARSI YEH"] [1740] ["az"; "bal"; "ckb"; "fa"; "ks"; "ku"; "pa"; "prs"; "ps"; "ur"] [];
   entry_of ["YEH WITH TAIL"] [1741] ["ps"] [];
   entry_of ["YEH WITH SMALL V"] [1742] ["az"; "ckb"; "ku"] [];
   entry_of ["WAW WITH DOT ABOVE"] [1743] ["bal"; "ms"] [];
   entry_of ["E"] [1744] ["ps"; "ug"; "uz"] [];
   entry_of ["YEH WITH THREE DOTS BELOW"] [1745] ["bm"; "mnk"] [];
   entry_of ["YEH BARREE"] [1746] ["bal"; "pa"; "ps"; "ur"] [];
   entry_of ["YEH BARREE WITH HAMZA ABOVE"] [1747] ["pa"; "ps"; "ur"] [];
   entry_of ["AE"] [1749] ["ckb"; "kk"; "ku"; "ky"; "ug"] [];
   entry_of ["SMALL HIGH DOTLESS HEAD OF KHAH"] [1761] ["sd"; "ur"] [];
   entry_of ["EMPTY CENTRE LOW STOP"] [1770] ["ks"] [];
   entry_of ["SMALL LOW MEEM"] [1773] ["ar"] [];
   entry_of ["REH WITH INVERTED V"] [1775] ["kvx"] [];
   entry_of ["SHEEN WITH DOT BELOW"] [1786] ["ha"; "ml"] [];
   entry_of ["DAD WITH DOT BELOW"] [1787] ["ml"; "ta"] [];
   entry_of ["GHAIN WITH DOT BELOW"] [1788] ["ml"] [];
   entry_of ["BEH WITH DOT BELOW AND THREE DOTS ABOVE"] [1873] ["ff"; "ha"; "wo"] [];
   entry_of ["BEH WITH THREE DOTS POINTING UPWARDS BELOW"] [1874] ["ff"; "srr"; "wo"] [];
   entry_of ["BEH WITH TWO DOTS BELOW AND DOT ABOVE"] [1876] ["bal"; "bm"] [];
   entry_of ["BEH WITH SMALL V"] [1878] ["fuf"; "snk"; "wo"] [];
   entry_of ["HAH WITH THREE DOTS POINTING UPWARDS BELOW"] [1880] ["dje"; "ms"] [];
   entry_of ["FEH WITH TWO DOTS BELOW"] [1888] ["ff"] [];
   entry_of ["KEHEH WITH DOT ABOVE"] [1890] ["ms"] [];
   entry_of ["KEHEH WITH THREE DOTS ABOVE"] [1891] ["ms"] [];
   entry_of ["MEEM WITH DOT BELOW"] [1894] [] ["TD"];
   entry_of ["NOON WITH TWO DOTS BELOW"] [1895] ["srr"; "wo"] [];
   entry_of ["NOON WITH SMALL TAH"] [1896] ["bft"; "pa"; "scl"; "skr"] [];
   entry_of ["NOON WITH SMALL V"] [1897] ["bft"; "skr"] [];
   entry_of ["LAM WITH BAR"] [1898] ["gwc"; "mwr"; "wo"] ["TD"];
   entry_of ["REH WITH HAMZA ABOVE"] [1900] ["ks"] [];
   entry_of ["HAH WITH SMALL ARABIC LETTER TAH BELOW"] [1902] ["khw"] [];
   entry_of ["HAH WITH SMALL ARABIC LETTER TAH AND TWO DOTS"] [1903] ["khw"] [];
   entry_of ["SEEN WITH SMALL ARABIC LETTER TAH AND TWO DOTS"] [1904] ["khw"] [];
   entry_of ["REH WITH SMALL ARABIC LETTER TAH AND TWO DOTS"] [1905] ["khw"] [];
   entry_of ["BEH WITH SMALL V BELOW"] [2208] ["wo"] ["SN"];
   entry_of ["JEEM WITH TWO DOTS ABOVE"] [2210] ["srr"] ["SN"];
   entry_of ["TAH WITH TWO DOTS ABOVE"] [2211] ["srr"; "wo"] ["SN"];
   entry_of ["FEH WITH DOT BELOW AND THREE DOTS ABOVE"] [2212] [] ["TD"];
   entry_of ["QAF WITH DOT BELOW"] [2213] [] ["TD"];
   entry_of ["LAM WITH DOUBLE BAR"] [2214] [] ["TD"];
   entry_of ["MEEM WITH THREE DOTS ABOVE"] [2215] [] ["TD"];
   entry_of ["YEH WITH TWO DOTS BELOW AND HAMZA ABOVE"] [2216] ["ff"] [];
   entry_of ["YEH WITH TWO DOTS BELOW AND DOT ABOVE"] [2217] ["ff"] [];
   entry_of ["ZAIN WITH INVERTED V ABOVE"] [2226] ["ar"] [];
   entry_of ["AIN WITH THREE DOTS BELOW"] [2227] ["ta"] []]%string.

(** The names that the prefixes and these entries spell *)
Definition letter_names : list (string * str) :=
  [("ARABIC SMALL HIGH TAH", [1557]);
   ("ARABIC LETTER KASHMIRI YEH", [1568]);
   ("ARABIC LETTER HAMZA", [1569]);
   ("ARABIC LETTER ALEF WITH MADDA ABOVE", [1570]);
   ("ARABIC LETTER ALEF WITH HAMZA ABOVE", [1571]);
   ("ARABIC LETTER WAW WITH HAMZA ABOVE", [1572]);
   ("ARABIC LETTER ALEF WITH HAMZA BELOW", [1573]);
   ("ARABIC LETTER YEH WITH HAMZA ABOVE", [1574]);
   ("ARABIC LETTER ALEF", [1575]);
   ("ARABIC LETTER BEH", [1576]);
   ("ARABIC LETTER TEH MARBUTA", [1577]);
   ("ARABIC LETTER TEH", [1578]);
   ("ARABIC LETTER THEH", [1579]);
   ("ARABIC LETTER JEEM", [1580]);
   ("ARABIC LETTER HAH", [1581]);
   ("ARABIC LETTER KHAH", [1582]);
   ("ARABIC LETTER DAL", [1583]);
   ("ARABIC LETTER THAL", [1584]);
   ("ARABIC LETTER REH", [1585]);
   ("ARABIC LETTER ZAIN", [1586]);
   ("ARABIC LETTER SEEN", [1587]);
   ("ARABIC LETTER SHEEN", [1588]);
   ("ARABIC LETTER SAD", [1589]);
   ("ARABIC LETTER DAD", [1590]);
   ("ARABIC LETTER TAH", [1591]);
   ("ARABIC LETTER ZAH", [1592]);
   ("ARABIC LETTER AIN", [1593]);
   ("ARABIC LETTER GHAIN", [1594]);
   ("ARABIC LETTER FARSI YEH WITH INVERTED V", [1597]);
   ("ARABIC LETTER FEH", [1601]);
   ("ARABIC LETTER QAF", [1602]);
   ("ARABIC LETTER KAF", [1603]);
   ("ARABIC LETTER LAM", [1604]);
   ("ARABIC LETTER MEEM", [1605]);
   ("ARABIC LETTER NOON", [1606]);
   ("ARABIC LETTER HEH", [1607]);
   ("ARABIC LETTER WAW", [1608]);
   ("ARABIC LETTER ALEF MAKSURA", [1609]);
   ("ARABIC LETTER YEH", [1610]);
   ("ARABIC FATHATAN", [1611]);
   ("ARABIC DAMMATAN", [1612]);
   ("ARABIC KASRATAN", [1613]);
   ("ARABIC FATHA", [1614]);
   ("ARABIC DAMMA", [1615]);
   ("ARABIC KASRA", [1616]);
   ("ARABIC SHADDA", [1617]);
   ("ARABIC SUKUN", [1618]);
   ("ARABIC MADDAH ABOVE", [1619]);
   ("ARABIC HAMZA ABOVE", [1620]);
   ("ARABIC HAMZA BELOW", [1621]);
   ("ARABIC SUBSCRIPT ALEF", [1622]);
   ("ARABIC INVERTED DAMMA", [1623]);
   ("ARABIC MARK NOON GHUNNA", [1624]);
   ("ARABIC ZWARAKAY", [1625]);
   ("ARABIC VOWEL SIGN SMALL V ABOVE", [1626]);
   ("ARABIC VOWEL SIGN INVERTED SMALL V ABOVE", [1627]);
   ("ARABIC VOWEL SIGN DOT BELOW", [1628]);
   ("ARABIC WAVY HAMZA BELOW", [1631]);
   ("ARABIC LETTER DOTLESS BEH", [1646]);
   ("ARABIC LETTER SUPERSCRIPT ALEF", [1648]);
   ("ARABIC LETTER ALEF WASLA", [1649]);
   ("ARABIC LETTER ALEF WITH WAVY HAMZA ABOVE", [1650]);
   ("ARABIC LETTER ALEF WITH WAVY HAMZA BELOW", [1651]);
   ("ARABIC LETTER HIGH HAMZA", [1652]);
   ("ARABIC LETTER HIGH HAMZA ALEF", [1653]);
   ("ARABIC LETTER HIGH HAMZA WAW", [1654]);
   ("ARABIC LETTER U WITH HAMZA ABOVE", [1655]);
   ("ARABIC LETTER HIGH HAMZA YEH", [1656]);
   ("ARABIC LETTER TTEH", [1657]);
   ("ARABIC LETTER TTEHEH", [1658]);
   ("ARABIC LETTER BEEH", [1659]);
   ("ARABIC LETTER TEH WITH RING", [1660]);
   ("ARABIC LETTER TEH WITH THREE DOTS ABOVE DOWNWARDS", [1661]);
   ("ARABIC LETTER PEH", [1662]);
   ("ARABIC LETTER TEHEH", [1663]);
   ("ARABIC LETTER BEHEH", [1664]);
   ("ARABIC LETTER HAH WITH HAMZA ABOVE", [1665]);
   ("ARABIC LETTER NYEH", [1667]);
   ("ARABIC LETTER DYEH", [1668]);
   ("ARABIC LETTER HAH WITH THREE DOTS ABOVE", [1669]);
   ("ARABIC LETTER TCHEH", [1670]);
   ("ARABIC LETTER TCHEHEH", [1671]);
   ("ARABIC LETTER DDAL", [1672]);
   ("ARABIC LETTER DAL WITH RING", [1673]);
   ("ARABIC LETTER DAL WITH DOT BELOW", [1674]);
   ("ARABIC LETTER DAL WITH DOT BELOW AND SMALL TAH", [1675]);
   ("ARABIC LETTER DAHAL", [1676]);
   ("ARABIC LETTER DDAHAL", [1677]);
   ("ARABIC LETTER DAL WITH THREE DOTS ABOVE DOWNWARDS", [1679]);
   ("ARABIC LETTER RREH", [1681]);
   ("ARABIC LETTER REH WITH RING", [1683]);
   ("ARABIC LETTER REH WITH DOT BELOW", [1684]);
   ("ARABIC LETTER REH WITH SMALL V BELOW", [1685]);
   ("ARABIC LETTER REH WITH DOT BELOW AND DOT ABOVE", [1686]);
   ("ARABIC LETTER REH WITH TWO DOTS ABOVE", [1687]);
   ("ARABIC LETTER JEH", [1688]);
   ("ARABIC LETTER REH WITH FOUR DOTS ABOVE", [1689]);
   ("ARABIC LETTER SEEN WITH DOT BELOW AND DOT ABOVE", [1690]);
   ("ARABIC LETTER SEEN WITH THREE DOTS BELOW AND THREE DOTS ABOVE", [1692]);
   ("ARABIC LETTER TAH WITH THREE DOTS ABOVE", [1695]);
   ("ARABIC LETTER AIN WITH THREE DOTS ABOVE", [1696]);
   ("ARABIC LETTER DOTLESS FEH", [1697]);
   ("ARABIC LETTER FEH WITH DOT MOVED BELOW", [1698]);
   ("ARABIC LETTER FEH WITH DOT BELOW", [1699]);
   ("ARABIC LETTER VEH", [1700]);
   ("ARABIC LETTER FEH WITH THREE DOTS BELOW", [1701]);
   ("ARABIC LETTER PEHEH", [1702]);
   ("ARABIC LETTER QAF WITH DOT ABOVE", [1703]);
   ("ARABIC LETTER QAF WITH THREE DOTS ABOVE", [1704]);
   ("ARABIC LETTER KEHEH", [1705]);
   ("ARABIC LETTER SWASH KAF", [1706]);
   ("ARABIC LETTER KAF WITH RING", [1707]);
   ("ARABIC LETTER NG", [1709]);
   ("ARABIC LETTER KAF WITH THREE DOTS BELOW", [1710]);
   ("ARABIC LETTER GAF", [1711]);
   ("ARABIC LETTER GAF WITH RING", [1712]);
   ("ARABIC LETTER NGOEH", [1713]);
   ("ARABIC LETTER GUEH", [1715]);
   ("ARABIC LETTER GAF WITH THREE DOTS ABOVE", [1716]);
   ("ARABIC LETTER LAM WITH SMALL V", [1717]);
   ("ARABIC LETTER NOON WITH DOT BELOW", [1721]);
   ("ARABIC LETTER NOON GHUNNA", [1722]);
   ("ARABIC LETTER RNOON", [1723]);
   ("ARABIC LETTER NOON WITH RING", [1724]);
   ("ARABIC LETTER NOON WITH THREE DOTS ABOVE", [1725]);
   ("ARABIC LETTER HEH DOACHASHMEE", [1726]);
   ("ARABIC LETTER TCHEH WITH DOT ABOVE", [1727]);
   ("ARABIC LETTER HEH WITH YEH ABOVE", [1728]);
   ("ARABIC LETTER HEH GOAL", [1729]);
   ("ARABIC LETTER HEH GOAL WITH HAMZA ABOVE", [1730]);
   ("ARABIC LETTER TEH MARBUTA GOAL", [1731]);
   ("ARABIC LETTER WAW WITH RING", [1732]);
   ("ARABIC LETTER KIRGHIZ OE", [1733]);
   ("ARABIC LETTER OE", [1734]);
   ("ARABIC LETTER U", [1735]);
   ("ARABIC LETTER YU", [1736]);
   ("ARABIC LETTER WAW WITH TWO DOTS ABOVE", [1738]);
   ("ARABIC LETTER VE", [1739]);
   ("ARABIC LETTER FARSI YEH", [1740]);
   ("ARABIC LETTER YEH WITH TAIL", [1741]);
   ("ARABIC LETTER YEH WITH SMALL V", [1742]);
   ("ARABIC LETTER WAW WITH DOT ABOVE", [1743]);
   ("ARABIC LETTER E", [1744]);
   ("ARABIC LETTER YEH WITH THREE DOTS BELOW", [1745]);
   ("ARABIC LETTER YEH BARREE", [1746]);
   ("ARABIC LETTER YEH BARREE WITH HAMZA ABOVE", [1747]);
   ("ARABIC LETTER AE", [1749]);
   ("ARABIC SMALL HIGH DOTLESS HEAD OF KHAH", [1761]);
   ("ARABIC EMPTY CENTRE LOW STOP", [1770]);
   ("ARABIC SMALL LOW MEEM", [1773]);
   ("ARABIC LETTER REH WITH INVERTED V", [1775]);
   ("ARABIC LETTER SHEEN WITH DOT BELOW", [1786]);
   ("ARABIC LETTER DAD WITH DOT BELOW", [1787]);
   ("ARABIC LETTER GHAIN WITH DOT BELOW", [1788]);
   ("ARABIC LETTER BEH WITH DOT BELOW AND THREE DOTS ABOVE", [1873]);
   ("ARABIC LETTER BEH WITH THREE DOTS POINTING UPWARDS BELOW", [1874]);
   ("ARABIC LETTER BEH WITH TWO DOTS BELOW AND DOT ABOVE", [1876]);
   ("ARABIC LETTER BEH WITH SMALL V", [1878]);
   ("ARABIC LETTER HAH WITH THREE DOTS POINTING UPWARDS BELOW", [1880]);
   ("ARABIC LETTER FEH WITH TWO DOTS BELOW", [1888]);
   ("ARABIC LETTER KEHEH WITH DOT ABOVE", [1890]);
   ("ARABIC LETTER KEHEH WITH THREE DOTS ABOVE", [1891]);
   ("ARABIC LETTER MEEM WITH DOT BELOW", [1894]);
   ("ARABIC LETTER NOON WITH TWO DOTS BELOW", [1895]);
   ("ARABIC LETTER NOON WITH SMALL TAH", [1896]);
   ("ARABIC LETTER NOON WITH SMALL V", [1897]);
   ("ARABIC LETTER LAM WITH BAR", [1898]);
   ("ARABIC LETTER REH WITH HAMZA ABOVE", [1900]);
   ("ARABIC LETTER HAH WITH SMALL ARABIC LETTER TAH BELOW", [1902]);
   ("ARABIC LETTER HAH WITH SMALL ARABIC LETTER TAH AND TWO DOTS", [1903]);
   ("ARABIC LETTER SEEN WITH SMALL ARABIC LETTER TAH AND TWO DOTS", [1904]);
   ("ARABIC LETTER REH WITH SMALL ARABIC LETTER TAH AND TWO DOTS", [1905]);
   ("ARABIC LETTER BEH WITH SMALL V BELOW", [2208]);
   ("ARABIC LETTER JEEM WITH TWO DOTS ABOVE", [2210]);
   ("ARABIC LETTER TAH WITH TWO DOTS ABOVE", [2211]);
   ("ARABIC LETTER FEH WITH DOT BELOW AND THREE DOTS ABOVE", [2212]);
   ("ARABIC LETTER QAF WITH DOT BELOW", [2213]);
   ("ARABIC LETTER LAM WITH DOUBLE BAR", [2214]);
   ("ARABIC LETTER MEEM WITH THREE DOTS ABOVE", [2215]);
   ("ARABIC LETTER YEH WITH TWO DOTS BELOW AND HAMZA ABOVE", [2216]);
   ("ARABIC LETTER YEH WITH TWO DOTS BELOW AND DOT ABOVE", [2217]);
   ("ARABIC LETTER ZAIN WITH INVERTED V ABOVE", [2226]);
   ("ARABIC LETTER AIN WITH THREE DOTS BELOW", [2227])]%string.
Definition letter_chars : list (str * str) := map (fun row => (codes (fst row), snd row)) letter_names.
