(** Fixed rule romanization of Malayalam.
    Generated by rocq/gen/gentables.py, do not edit. *)
From Verif Require Import Base RuleModel.

(** nisaba/scripts/brahmic/data/Mlym/fixed.textproto *)
Definition fixed_Mlym : list rule :=
  [Rule [97; 97] [257];
   Rule [105; 105] [299];
   Rule [117; 117] [363];
   Rule [107; 104] [107; 688];
   Rule [103; 104] [103; 688];
   Rule [99; 104] [99];
   Rule [99; 104] [99; 688];
   Rule [106; 104] [106; 688];
   Rule [84; 104] [7789; 688];
   Rule [68; 104] [7693; 688];
   Rule [100; 104] [100; 688];
   Rule [112; 104] [112; 688];
   Rule [98; 104] [98; 688];
   Rule [115; 104] [7779];
   Rule [122; 104] [7739];
   Rule [69] [275];
   Rule [79] [333];
   Rule [72] [7717];
   Rule [84] [7789];
   Rule [68] [7693];
   Rule [78] [7751; 11823];
   Rule [110] [110; 11823];
   Rule [109] [7745];
   Rule [114] [114; 11823];
   Rule [108] [108; 11823];
   Rule [83] [347];
   Rule [76] [7735; 11823];
   Rule [116] [7775; 7775];
   Rule [82] [114; 805];
   Rule [114; 805; 114; 805] [114; 805; 772];
   Rule [110; 11823; 106] [241];
   Rule [7775; 7775; 104] [116];
   Rule [116; 104] [116; 688];
   Rule [110; 11823; 103] [7749];
   Rule [114; 11823; 114; 11823] [7775];
   Rule [110; 11823; 110; 11823] [110; 110];
   Rule [110; 11823; 100] [110; 100];
   Rule [110; 11823; 7745] [110; 109];
   Rule [7751; 11823; 7751; 11823] [7751; 7751];
   Rule [7751; 11823; 7693] [7751; 7693];
   Rule [7751; 11823; 7789] [7751; 7789];
   Rule [7751; 11823; 7745] [7751; 109];
   Rule [108; 11823; 108; 11823] [108; 108];
   Rule [108; 11823; 7745] [108; 109];
   Rule [108; 11823; 112] [108; 112];
   Rule [7735; 11823; 7735; 11823] [7735; 7735];
   Rule [11823; 97] [97];
   Rule [11823; 257] [257];
   Rule [11823; 105] [105];
   Rule [11823; 299] [299];
   Rule [11823; 117] [117];
   Rule [11823; 363] [363];
   Rule [11823; 114; 805] [114; 805];
   Rule [11823; 101] [101];
   Rule [11823; 275] [275];
   Rule [11823; 111] [111];
   Rule [11823; 333] [333];
   Rule [11823; 121] [121];
   Rule [11823; 114] [114];
   Rule [11823; 108] [108];
   Rule [11823; 118] [118];
   Rule [7745; 7745] [109; 109];
   Rule [7745; 97] [109; 97];
   Rule [7745; 257] [109; 257];
   Rule [7745; 105] [109; 105];
   Rule [7745; 299] [109; 299];
   Rule [7745; 117] [109; 117];
   Rule [7745; 363] [109; 363];
   Rule [7745; 101] [109; 101];
   Rule [7745; 275] [109; 275];
   Rule [7745; 111] [109; 111];
   Rule [7745; 112] [109; 112];
   Rule [7745; 121] [109; 121];
   Rule [7745; 108] [109; 108];
   Rule [7745; 118] [109; 118];
   Rule [7745; 114] [109; 114];
   Rule [7745; 114; 805] [109; 114; 805];
   Rule [110; 11823; 116] [110; 116];
   Rule [110; 11823; 7775; 7775] [110; 11823; 728; 7775];
   Rule [11823; 126] [];
   Rule [126] []]%N.
