(** The reversible romanization table of Arabic script.
    Generated by rocq/gen/gentables.py, do not edit. *)
From Verif Require Import Base RuleModel.

(** nisaba/scripts/abjad_alphabet/data/Arab/reversible_roman.textproto *)
Definition roman_table : list (str * str) :=
  [([1576], [98]);
   ([1659], [98; 804]);
   ([1664], [98; 863; 104]);
   ([1662], [112]);
   ([1578], [116]);
   ([1657], [7789]);
   ([1663], [116; 863; 104]);
   ([1661], [7787]);
   ([1658], [7789; 863; 104]);
   ([1579], [115; 817]);
   ([1580], [106]);
   ([1668], [106; 776]);
   ([1667], [241]);
   ([1670], [99]);
   ([1671], [99; 863; 104]);
   ([1581], [7717]);
   ([1582], [107; 863; 104]);
   ([1583], [100]);
   ([1676], [100; 863; 104]);
   ([1679], [100; 804]);
   ([1674], [7695]);
   ([1677], [7693; 863; 104]);
   ([1672], [7693]);
   ([1584], [7829]);
   ([1585], [114]);
   ([1681], [7771]);
   ([1689], [114; 804]);
   ([1586], [122]);
   ([2226], [7825]);
   ([1688], [122; 863; 104]);
   ([1587], [115]);
   ([1588], [347]);
   ([1589], [7779]);
   ([1590], [7827]);
   ([1591], [116; 804]);
   ([1592], [122; 804]);
   ([1593], [699]);
   ([1594], [103; 863; 104]);
   ([1601], [102]);
   ([1698], [102; 803]);
   ([1702], [112; 863; 104]);
   ([1602], [113]);
   ([1703], [113; 774]);
   ([1700], [118; 780]);
   ([1739], [119; 780]);
   ([1701], [118; 770]);
   ([1603], [107]);
   ([1706], [7731]);
   ([1705], [7729]);
   ([1711], [103]);
   ([1715], [103; 776]);
   ([1716], [328]);
   ([1713], [110; 776]);
   ([1604], [108]);
   ([1605], [109]);
   ([1606], [110]);
   ([1723], [7751]);
   ([1722], [110; 817]);
   ([1608], [650]);
   ([1607], [104]);
   ([1577], [7831]);
   ([1609], [121]);
   ([1610], [121; 804]);
   ([1614], [97]);
   ([1615], [117]);
   ([1616], [105]);
   ([1570], [700; 863; 257]);
   ([1740], [299]);
   ([1746], [121; 863; 105]);
   ([1569], [700]);
   ([1654], [118; 863; 39]);
   ([1574], [121; 863; 39]);
   ([1617], [720]);
   ([1618], [8728]);
   ([1761], [8728; 770]);
   ([1612], [117; 863; 110]);
   ([1613], [105; 863; 110]);
   ([1611], [97; 863; 110]);
   ([1575], [257]);
   ([1729], [104; 804]);
   ([1747], [233]);
   ([1572], [117; 849]);
   ([1623], [596]);
   ([1731], [228]);
   ([1726], [688]);
   ([1728], [601]);
   ([1648], [7491]);
   ([1622], [8336]);
   ([1620], [688; 855]);
   ([1621], [688; 825]);
   ([1631], [816]);
   ([1619], [7504; 855]);
   ([1571], [702; 97]);
   ([1730], [702; 104; 804]);
   ([1735], [649]);
   ([1736], [252]);
   ([1568], [690]);
   ([1573], [363; 700]);
   ([1650], [7841; 772]);
   ([1651], [7909; 772]);
   ([1660], [116; 805]);
   ([1665], [380]);
   ([1669], [7777]);
   ([1673], [100; 805]);
   ([1675], [7693; 772]);
   ([1683], [114; 805]);
   ([1685], [114; 772]);
   ([1686], [291]);
   ([1687], [598]);
   ([1690], [7821]);
   ([1692], [349]);
   ([1695], [116; 863; 115]);
   ([1699], [7711; 803]);
   ([1696], [110; 863; 103]);
   ([1704], [113; 775]);
   ([1707], [103; 778]);
   ([1709], [331]);
   ([1710], [103; 803]);
   ([1712], [103; 805]);
   ([1717], [322]);
   ([1724], [110; 805]);
   ([1725], [7749; 776]);
   ([1727], [241; 775]);
   ([1732], [7885]);
   ([1734], [246]);
   ([1741], [601; 8305]);
   ([1742], [234]);
   ([1743], [118; 775]);
   ([1738], [118; 776]);
   ([1744], [618]);
   ([1745], [255; 775]);
   ([1749], [603]);
   ([1786], [7779; 776]);
   ([1873], [112; 803; 776]);
   ([1874], [595]);
   ([1876], [7685]);
   ([1878], [269]);
   ([1888], [402]);
   ([1890], [107; 794]);
   ([1891], [489]);
   ([1894], [7747]);
   ([1895], [110; 804]);
   ([1897], [110; 878]);
   ([1898], [7735]);
   ([1902], [499; 804]);
   ([1903], [99; 803]);
   ([1904], [643]);
   ([1905], [656]);
   ([2208], [387]);
   ([2210], [392]);
   ([2211], [429]);
   ([1557], [802]);
   ([1900], [637]);
   ([2212], [7711; 776; 803]);
   ([2213], [113; 803]);
   ([2214], [11361]);
   ([2215], [7745; 776]);
   ([2216], [253; 804]);
   ([2217], [7823; 804]);
   ([2227], [627]);
   ([1628], [798]);
   ([1684], [638; 805]);
   ([1721], [327]);
   ([1787], [658]);
   ([1597], [654]);
   ([1649], [230]);
   ([1652], [660]);
   ([1653], [261]);
   ([1655], [366]);
   ([1656], [376]);
   ([1625], [281]);
   ([1788], [326]);
   ([1624], [771]);
   ([1626], [7805]);
   ([1627], [11377]);
   ([1770], [810]);
   ([1646], [384]);
   ([1880], [265]);
   ([1733], [339]);
   ([1775], [621]);
   ([1773], [7599]);
   ([1697], [102; 695]);
   ([1896], [7750])]%N.
