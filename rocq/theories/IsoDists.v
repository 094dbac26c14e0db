(** GENERATED by rocq/gen/isodists.py.  For each script, in both directions, entries
    (q, p, a, b): what automaton state p reads, state q reads for at most a - b more.
    These are proposals; [check_dists] decides them. *)
From Verif Require Import Base.

Definition dists_from_Beng : list (positive * positive * N * N) :=
  [((32, 1)%positive, 1, 0); ((32, 40)%positive, 0, 1); ((41, 91)%positive, 1, 0); ((83, 1)%positive, 1, 0); ((83, 32)%positive, 0, 0); ((83, 38)%positive, 0, 0); ((83, 41)%positive, 0, 0); ((83, 91)%positive, 1, 0);
   ((83, 95)%positive, 1, 0); ((84, 33)%positive, 0, 0); ((84, 42)%positive, 0, 0); ((84, 96)%positive, 1, 0); ((85, 34)%positive, 0, 0); ((85, 43)%positive, 0, 0); ((85, 97)%positive, 1, 0); ((86, 35)%positive, 0, 0);
   ((86, 44)%positive, 0, 0); ((86, 98)%positive, 1, 0); ((87, 36)%positive, 0, 0); ((87, 45)%positive, 0, 0); ((87, 99)%positive, 1, 0); ((88, 37)%positive, 0, 0); ((88, 46)%positive, 0, 0); ((88, 100)%positive, 1, 0);
   ((95, 1)%positive, 0, 0); ((95, 32)%positive, 0, 1); ((95, 38)%positive, 0, 1); ((95, 41)%positive, 0, 1); ((95, 83)%positive, 0, 1); ((95, 91)%positive, 0, 0); ((96, 33)%positive, 0, 1); ((96, 42)%positive, 0, 1);
   ((96, 84)%positive, 0, 1); ((97, 34)%positive, 0, 1); ((97, 43)%positive, 0, 1); ((97, 85)%positive, 0, 1); ((98, 35)%positive, 0, 1); ((98, 44)%positive, 0, 1); ((98, 86)%positive, 0, 1); ((99, 36)%positive, 0, 1);
   ((99, 45)%positive, 0, 1); ((99, 87)%positive, 0, 1); ((100, 37)%positive, 0, 1); ((100, 46)%positive, 0, 1); ((100, 88)%positive, 0, 1); ((107, 81)%positive, 0, 0); ((107, 89)%positive, 0, 0); ((107, 113)%positive, 1, 0);
   ((108, 82)%positive, 0, 0); ((108, 90)%positive, 0, 0); ((108, 114)%positive, 1, 0); ((113, 81)%positive, 0, 1); ((113, 89)%positive, 0, 1); ((113, 107)%positive, 0, 1); ((114, 82)%positive, 0, 1); ((114, 90)%positive, 0, 1);
   ((114, 108)%positive, 0, 1); ((116, 105)%positive, 0, 0); ((116, 109)%positive, 0, 0); ((116, 118)%positive, 1, 0); ((117, 106)%positive, 0, 0); ((117, 110)%positive, 0, 0); ((117, 119)%positive, 1, 0); ((118, 105)%positive, 0, 1);
   ((118, 109)%positive, 0, 1); ((118, 116)%positive, 0, 1); ((119, 106)%positive, 0, 1); ((119, 110)%positive, 0, 1); ((119, 117)%positive, 0, 1)]%N.
Definition dists_to_Beng : list (positive * positive * N * N) :=
  [((1, 41)%positive, 0, 1); ((102, 42)%positive, 0, 1); ((103, 43)%positive, 0, 1); ((104, 44)%positive, 0, 1); ((105, 45)%positive, 0, 1); ((106, 46)%positive, 0, 1); ((107, 47)%positive, 0, 1); ((126, 54)%positive, 0, 1);
   ((127, 55)%positive, 0, 1); ((128, 56)%positive, 0, 1); ((129, 57)%positive, 0, 1); ((130, 58)%positive, 0, 1); ((131, 59)%positive, 0, 1); ((132, 60)%positive, 0, 1); ((134, 121)%positive, 0, 1); ((135, 109)%positive, 0, 1);
   ((136, 110)%positive, 0, 1); ((139, 41)%positive, 0, 0); ((139, 54)%positive, 0, 0); ((148, 122)%positive, 0, 1); ((149, 123)%positive, 0, 1); ((150, 41)%positive, 0, 1); ((150, 54)%positive, 0, 1); ((150, 139)%positive, 0, 1);
   ((151, 140)%positive, 0, 1); ((152, 141)%positive, 0, 1); ((153, 142)%positive, 0, 1); ((154, 143)%positive, 0, 1); ((155, 144)%positive, 0, 1); ((156, 145)%positive, 0, 1); ((157, 146)%positive, 0, 1); ((158, 147)%positive, 0, 1);
   ((163, 159)%positive, 0, 1); ((164, 160)%positive, 0, 1); ((165, 161)%positive, 0, 1); ((166, 162)%positive, 0, 1)]%N.
Definition dists_from_Bugi : list (positive * positive * N * N) :=
  [((2, 4)%positive, 0, 6); ((2, 19)%positive, 0, 6); ((21, 5)%positive, 0, 0); ((21, 11)%positive, 0, 0); ((21, 12)%positive, 0, 0); ((22, 6)%positive, 0, 0); ((22, 13)%positive, 0, 0); ((23, 7)%positive, 0, 0);
   ((23, 14)%positive, 0, 0); ((24, 8)%positive, 0, 0); ((24, 15)%positive, 0, 0); ((25, 9)%positive, 0, 0); ((25, 16)%positive, 0, 0); ((26, 10)%positive, 0, 0); ((26, 17)%positive, 0, 0); ((28, 5)%positive, 0, 1);
   ((28, 11)%positive, 0, 1); ((28, 12)%positive, 0, 1); ((28, 21)%positive, 0, 1); ((29, 6)%positive, 0, 1); ((29, 13)%positive, 0, 1); ((29, 22)%positive, 0, 1); ((30, 7)%positive, 0, 1); ((30, 14)%positive, 0, 1);
   ((30, 23)%positive, 0, 1); ((31, 8)%positive, 0, 1); ((31, 15)%positive, 0, 1); ((31, 24)%positive, 0, 1); ((32, 9)%positive, 0, 1); ((32, 16)%positive, 0, 1); ((32, 25)%positive, 0, 1); ((33, 10)%positive, 0, 1);
   ((33, 17)%positive, 0, 1); ((33, 26)%positive, 0, 1)]%N.
Definition dists_to_Bugi : list (positive * positive * N * N) :=
  [((2, 12)%positive, 0, 6); ((2, 25)%positive, 0, 6); ((3, 13)%positive, 0, 6); ((3, 26)%positive, 0, 6); ((4, 14)%positive, 0, 6); ((4, 27)%positive, 0, 6); ((5, 15)%positive, 0, 6); ((5, 28)%positive, 0, 6);
   ((6, 16)%positive, 0, 6); ((6, 29)%positive, 0, 6)]%N.
Definition dists_from_Deva : list (positive * positive * N * N) :=
  [((11, 29)%positive, 0, 0); ((29, 31)%positive, 0, 1); ((60, 29)%positive, 0, 0); ((60, 32)%positive, 0, 0); ((62, 29)%positive, 0, 1); ((62, 32)%positive, 0, 1); ((62, 60)%positive, 0, 1)]%N.
Definition dists_to_Deva : list (positive * positive * N * N) :=
  [((1, 41)%positive, 0, 1); ((98, 42)%positive, 0, 1); ((99, 43)%positive, 0, 1); ((100, 44)%positive, 0, 1); ((101, 45)%positive, 0, 1); ((102, 46)%positive, 0, 1); ((103, 47)%positive, 0, 1); ((116, 52)%positive, 0, 1);
   ((117, 53)%positive, 0, 1); ((118, 54)%positive, 0, 1); ((119, 55)%positive, 0, 1); ((120, 56)%positive, 0, 1); ((121, 57)%positive, 0, 1); ((122, 58)%positive, 0, 1); ((123, 113)%positive, 0, 1); ((124, 104)%positive, 0, 1);
   ((125, 105)%positive, 0, 1); ((128, 41)%positive, 0, 0); ((128, 52)%positive, 0, 0); ((135, 114)%positive, 0, 1); ((136, 115)%positive, 0, 1); ((137, 41)%positive, 0, 1); ((137, 52)%positive, 0, 1); ((137, 128)%positive, 0, 1);
   ((138, 129)%positive, 0, 1); ((139, 130)%positive, 0, 1); ((140, 131)%positive, 0, 1); ((141, 132)%positive, 0, 1); ((142, 133)%positive, 0, 1); ((143, 134)%positive, 0, 1); ((146, 144)%positive, 0, 1); ((147, 145)%positive, 0, 1)]%N.
Definition dists_from_Gujr : list (positive * positive * N * N) :=
  [((8, 20)%positive, 0, 0); ((20, 22)%positive, 0, 1); ((42, 20)%positive, 0, 0); ((42, 23)%positive, 0, 0); ((44, 20)%positive, 0, 1); ((44, 23)%positive, 0, 1); ((44, 42)%positive, 0, 1)]%N.
Definition dists_to_Gujr : list (positive * positive * N * N) :=
  [((1, 35)%positive, 0, 1); ((86, 36)%positive, 0, 1); ((87, 37)%positive, 0, 1); ((88, 38)%positive, 0, 1); ((89, 39)%positive, 0, 1); ((90, 40)%positive, 0, 1); ((91, 41)%positive, 0, 1); ((104, 46)%positive, 0, 1);
   ((105, 47)%positive, 0, 1); ((106, 48)%positive, 0, 1); ((107, 49)%positive, 0, 1); ((108, 50)%positive, 0, 1); ((109, 51)%positive, 0, 1); ((110, 52)%positive, 0, 1); ((111, 101)%positive, 0, 1); ((112, 92)%positive, 0, 1);
   ((113, 93)%positive, 0, 1); ((116, 35)%positive, 0, 0); ((116, 46)%positive, 0, 0); ((123, 102)%positive, 0, 1); ((124, 103)%positive, 0, 1); ((125, 35)%positive, 0, 1); ((125, 46)%positive, 0, 1); ((125, 116)%positive, 0, 1);
   ((126, 117)%positive, 0, 1); ((127, 118)%positive, 0, 1); ((128, 119)%positive, 0, 1); ((129, 120)%positive, 0, 1); ((130, 121)%positive, 0, 1); ((131, 122)%positive, 0, 1); ((134, 132)%positive, 0, 1); ((135, 133)%positive, 0, 1)]%N.
Definition dists_from_Guru : list (positive * positive * N * N) :=
  [((26, 28)%positive, 0, 1); ((54, 26)%positive, 0, 0); ((54, 29)%positive, 0, 0); ((56, 26)%positive, 0, 1); ((56, 29)%positive, 0, 1); ((56, 54)%positive, 0, 1)]%N.
Definition dists_to_Guru : list (positive * positive * N * N) :=
  []%N.
Definition dists_from_Knda : list (positive * positive * N * N) :=
  [((15, 2)%positive, 2, 0); ((15, 6)%positive, 0, 0); ((15, 10)%positive, 2, 0); ((15, 17)%positive, 0, 1); ((15, 20)%positive, 2, 0); ((16, 1)%positive, 1, 0); ((16, 39)%positive, 1, 0); ((17, 15)%positive, 1, 0);
   ((19, 28)%positive, 1, 0); ((36, 14)%positive, 0, 0); ((36, 18)%positive, 0, 0); ((36, 42)%positive, 1, 0); ((37, 2)%positive, 2, 0); ((37, 6)%positive, 0, 0); ((37, 10)%positive, 2, 0); ((37, 15)%positive, 0, 0);
   ((37, 19)%positive, 0, 0); ((37, 20)%positive, 2, 0); ((37, 28)%positive, 1, 0); ((37, 43)%positive, 1, 0); ((42, 14)%positive, 0, 1); ((42, 18)%positive, 0, 1); ((42, 36)%positive, 0, 1); ((43, 2)%positive, 1, 0);
   ((43, 6)%positive, 0, 1); ((43, 10)%positive, 1, 0); ((43, 15)%positive, 0, 1); ((43, 19)%positive, 0, 1); ((43, 20)%positive, 1, 0); ((43, 28)%positive, 0, 0); ((43, 37)%positive, 0, 1); ((48, 35)%positive, 0, 0);
   ((48, 38)%positive, 0, 0); ((48, 51)%positive, 1, 0); ((51, 35)%positive, 0, 1); ((51, 38)%positive, 0, 1); ((51, 48)%positive, 0, 1)]%N.
Definition dists_to_Knda : list (positive * positive * N * N) :=
  [((1, 38)%positive, 0, 1); ((91, 39)%positive, 0, 1); ((92, 40)%positive, 0, 1); ((93, 41)%positive, 0, 1); ((94, 42)%positive, 0, 1); ((95, 43)%positive, 0, 1); ((96, 44)%positive, 0, 1); ((109, 48)%positive, 0, 1);
   ((110, 49)%positive, 0, 1); ((111, 50)%positive, 0, 1); ((112, 51)%positive, 0, 1); ((113, 52)%positive, 0, 1); ((114, 53)%positive, 0, 1); ((115, 54)%positive, 0, 1); ((116, 106)%positive, 0, 1); ((117, 97)%positive, 0, 1);
   ((118, 98)%positive, 0, 1); ((121, 38)%positive, 0, 0); ((121, 48)%positive, 0, 0); ((128, 107)%positive, 0, 1); ((129, 108)%positive, 0, 1); ((130, 38)%positive, 0, 1); ((130, 48)%positive, 0, 1); ((130, 121)%positive, 0, 1);
   ((131, 122)%positive, 0, 1); ((132, 123)%positive, 0, 1); ((133, 124)%positive, 0, 1); ((134, 125)%positive, 0, 1); ((135, 126)%positive, 0, 1); ((136, 127)%positive, 0, 1); ((139, 137)%positive, 0, 1); ((140, 138)%positive, 0, 1)]%N.
Definition dists_from_Lepc : list (positive * positive * N * N) :=
  [((2, 12)%positive, 0, 6); ((2, 39)%positive, 0, 6); ((3, 13)%positive, 0, 6); ((3, 40)%positive, 0, 6); ((4, 14)%positive, 0, 6); ((4, 41)%positive, 0, 6); ((5, 15)%positive, 0, 6); ((5, 42)%positive, 0, 6);
   ((6, 16)%positive, 0, 6); ((6, 43)%positive, 0, 6); ((49, 59)%positive, 0, 6); ((49, 78)%positive, 0, 6); ((50, 60)%positive, 0, 6); ((50, 79)%positive, 0, 6); ((51, 61)%positive, 0, 6); ((51, 80)%positive, 0, 6);
   ((52, 62)%positive, 0, 6); ((52, 81)%positive, 0, 6); ((53, 63)%positive, 0, 6); ((53, 82)%positive, 0, 6); ((64, 17)%positive, 0, 0); ((64, 25)%positive, 0, 0); ((64, 26)%positive, 0, 0); ((65, 18)%positive, 0, 0);
   ((65, 27)%positive, 0, 0); ((66, 19)%positive, 0, 0); ((66, 28)%positive, 0, 0); ((67, 20)%positive, 0, 0); ((67, 29)%positive, 0, 0); ((68, 21)%positive, 0, 0); ((68, 30)%positive, 0, 0); ((69, 22)%positive, 0, 0);
   ((69, 31)%positive, 0, 0); ((70, 23)%positive, 0, 0); ((70, 32)%positive, 0, 0); ((71, 24)%positive, 0, 0); ((71, 33)%positive, 0, 0); ((85, 17)%positive, 0, 1); ((85, 25)%positive, 0, 1); ((85, 26)%positive, 0, 1);
   ((85, 64)%positive, 0, 1); ((86, 18)%positive, 0, 1); ((86, 27)%positive, 0, 1); ((86, 65)%positive, 0, 1); ((87, 19)%positive, 0, 1); ((87, 28)%positive, 0, 1); ((87, 66)%positive, 0, 1); ((88, 20)%positive, 0, 1);
   ((88, 29)%positive, 0, 1); ((88, 67)%positive, 0, 1); ((89, 21)%positive, 0, 1); ((89, 30)%positive, 0, 1); ((89, 68)%positive, 0, 1); ((90, 22)%positive, 0, 1); ((90, 31)%positive, 0, 1); ((90, 69)%positive, 0, 1);
   ((91, 23)%positive, 0, 1); ((91, 32)%positive, 0, 1); ((91, 70)%positive, 0, 1); ((92, 24)%positive, 0, 1); ((92, 33)%positive, 0, 1); ((92, 71)%positive, 0, 1)]%N.
Definition dists_to_Lepc : list (positive * positive * N * N) :=
  [((2, 40)%positive, 0, 6); ((2, 90)%positive, 0, 6); ((3, 41)%positive, 0, 6); ((3, 91)%positive, 0, 6); ((4, 42)%positive, 0, 6); ((4, 92)%positive, 0, 6); ((5, 43)%positive, 0, 6); ((5, 93)%positive, 0, 6);
   ((6, 44)%positive, 0, 6); ((6, 94)%positive, 0, 6); ((7, 45)%positive, 0, 6); ((7, 95)%positive, 0, 6); ((8, 46)%positive, 0, 6); ((8, 96)%positive, 0, 6); ((9, 47)%positive, 0, 6); ((9, 97)%positive, 0, 6);
   ((10, 48)%positive, 0, 6); ((10, 98)%positive, 0, 6); ((11, 49)%positive, 0, 6); ((11, 99)%positive, 0, 6); ((12, 50)%positive, 0, 6); ((12, 100)%positive, 0, 6); ((13, 51)%positive, 0, 6); ((13, 101)%positive, 0, 6);
   ((14, 52)%positive, 0, 6); ((14, 102)%positive, 0, 6); ((15, 53)%positive, 0, 6); ((15, 103)%positive, 0, 6); ((16, 54)%positive, 0, 6); ((16, 104)%positive, 0, 6); ((17, 55)%positive, 0, 6); ((17, 105)%positive, 0, 6);
   ((18, 56)%positive, 0, 6); ((18, 106)%positive, 0, 6); ((19, 57)%positive, 0, 6); ((19, 107)%positive, 0, 6); ((20, 58)%positive, 0, 6); ((20, 108)%positive, 0, 6); ((128, 142)%positive, 0, 6); ((128, 159)%positive, 0, 6);
   ((129, 143)%positive, 0, 6); ((129, 160)%positive, 0, 6); ((130, 144)%positive, 0, 6); ((130, 161)%positive, 0, 6); ((131, 145)%positive, 0, 6); ((131, 162)%positive, 0, 6); ((132, 146)%positive, 0, 6); ((132, 163)%positive, 0, 6);
   ((133, 147)%positive, 0, 6); ((133, 164)%positive, 0, 6); ((134, 148)%positive, 0, 6); ((134, 165)%positive, 0, 6); ((173, 175)%positive, 0, 6); ((173, 179)%positive, 0, 6)]%N.
Definition dists_from_Limb : list (positive * positive * N * N) :=
  [((5, 16)%positive, 0, 1); ((33, 5)%positive, 0, 0); ((33, 15)%positive, 0, 0); ((33, 17)%positive, 0, 0); ((34, 6)%positive, 0, 0); ((34, 18)%positive, 0, 0); ((35, 7)%positive, 0, 0); ((35, 19)%positive, 0, 0);
   ((36, 8)%positive, 0, 0); ((36, 20)%positive, 0, 0); ((37, 9)%positive, 0, 0); ((37, 21)%positive, 0, 0); ((38, 10)%positive, 0, 0); ((38, 22)%positive, 0, 0); ((39, 11)%positive, 0, 0); ((39, 23)%positive, 0, 0);
   ((40, 12)%positive, 0, 0); ((40, 24)%positive, 0, 0); ((41, 13)%positive, 0, 0); ((41, 25)%positive, 0, 0); ((42, 14)%positive, 0, 0); ((42, 26)%positive, 0, 0); ((47, 5)%positive, 0, 1); ((47, 15)%positive, 0, 1);
   ((47, 17)%positive, 0, 1); ((47, 33)%positive, 0, 1); ((48, 6)%positive, 0, 1); ((48, 18)%positive, 0, 1); ((48, 34)%positive, 0, 1); ((49, 7)%positive, 0, 1); ((49, 19)%positive, 0, 1); ((49, 35)%positive, 0, 1);
   ((50, 8)%positive, 0, 1); ((50, 20)%positive, 0, 1); ((50, 36)%positive, 0, 1); ((51, 9)%positive, 0, 1); ((51, 21)%positive, 0, 1); ((51, 37)%positive, 0, 1); ((52, 10)%positive, 0, 1); ((52, 22)%positive, 0, 1);
   ((52, 38)%positive, 0, 1); ((53, 11)%positive, 0, 1); ((53, 23)%positive, 0, 1); ((53, 39)%positive, 0, 1); ((54, 12)%positive, 0, 1); ((54, 24)%positive, 0, 1); ((54, 40)%positive, 0, 1); ((55, 13)%positive, 0, 1);
   ((55, 25)%positive, 0, 1); ((55, 41)%positive, 0, 1); ((56, 14)%positive, 0, 1); ((56, 26)%positive, 0, 1); ((56, 42)%positive, 0, 1)]%N.
Definition dists_to_Limb : list (positive * positive * N * N) :=
  [((1, 35)%positive, 0, 1); ((78, 36)%positive, 0, 1); ((79, 37)%positive, 0, 1); ((87, 41)%positive, 0, 1); ((88, 42)%positive, 0, 1); ((89, 43)%positive, 0, 1); ((91, 85)%positive, 0, 1); ((93, 35)%positive, 0, 0);
   ((93, 41)%positive, 0, 0); ((96, 35)%positive, 0, 1); ((96, 41)%positive, 0, 1); ((96, 93)%positive, 0, 1); ((97, 94)%positive, 0, 1); ((98, 95)%positive, 0, 1)]%N.
Definition dists_from_Mlym : list (positive * positive * N * N) :=
  [((5, 7)%positive, 0, 1); ((12, 5)%positive, 0, 0); ((12, 8)%positive, 0, 0); ((14, 5)%positive, 0, 1); ((14, 8)%positive, 0, 1); ((14, 12)%positive, 0, 1)]%N.
Definition dists_to_Mlym : list (positive * positive * N * N) :=
  [((1, 35)%positive, 0, 1); ((92, 40)%positive, 0, 1); ((93, 41)%positive, 0, 1); ((95, 36)%positive, 0, 1); ((96, 37)%positive, 0, 1); ((97, 38)%positive, 0, 1); ((98, 39)%positive, 0, 1); ((112, 52)%positive, 0, 1);
   ((113, 57)%positive, 0, 1); ((114, 58)%positive, 0, 1); ((116, 53)%positive, 0, 1); ((117, 54)%positive, 0, 1); ((118, 55)%positive, 0, 1); ((119, 56)%positive, 0, 1); ((120, 109)%positive, 0, 1); ((122, 99)%positive, 0, 1);
   ((123, 100)%positive, 0, 1); ((127, 35)%positive, 0, 0); ((127, 52)%positive, 0, 0); ((135, 110)%positive, 0, 1); ((136, 111)%positive, 0, 1); ((137, 35)%positive, 0, 1); ((137, 52)%positive, 0, 1); ((137, 127)%positive, 0, 1);
   ((138, 128)%positive, 0, 1); ((139, 129)%positive, 0, 1); ((140, 130)%positive, 0, 1); ((141, 131)%positive, 0, 1); ((142, 132)%positive, 0, 1); ((143, 133)%positive, 0, 1); ((146, 144)%positive, 0, 1); ((147, 145)%positive, 0, 1)]%N.
Definition dists_from_Mtei : list (positive * positive * N * N) :=
  [((5, 14)%positive, 0, 1); ((26, 5)%positive, 0, 0); ((26, 13)%positive, 0, 0); ((26, 15)%positive, 0, 0); ((27, 6)%positive, 0, 0); ((27, 16)%positive, 0, 0); ((28, 7)%positive, 0, 0); ((28, 17)%positive, 0, 0);
   ((29, 8)%positive, 0, 0); ((29, 18)%positive, 0, 0); ((30, 9)%positive, 0, 0); ((30, 19)%positive, 0, 0); ((31, 10)%positive, 0, 0); ((31, 20)%positive, 0, 0); ((32, 11)%positive, 0, 0); ((32, 21)%positive, 0, 0);
   ((33, 12)%positive, 0, 0); ((33, 22)%positive, 0, 0); ((35, 5)%positive, 0, 1); ((35, 13)%positive, 0, 1); ((35, 15)%positive, 0, 1); ((35, 26)%positive, 0, 1); ((36, 6)%positive, 0, 1); ((36, 16)%positive, 0, 1);
   ((36, 27)%positive, 0, 1); ((37, 7)%positive, 0, 1); ((37, 17)%positive, 0, 1); ((37, 28)%positive, 0, 1); ((38, 8)%positive, 0, 1); ((38, 18)%positive, 0, 1); ((38, 29)%positive, 0, 1); ((39, 9)%positive, 0, 1);
   ((39, 19)%positive, 0, 1); ((39, 30)%positive, 0, 1); ((40, 10)%positive, 0, 1); ((40, 20)%positive, 0, 1); ((40, 31)%positive, 0, 1); ((41, 11)%positive, 0, 1); ((41, 21)%positive, 0, 1); ((41, 32)%positive, 0, 1);
   ((42, 12)%positive, 0, 1); ((42, 22)%positive, 0, 1); ((42, 33)%positive, 0, 1)]%N.
Definition dists_to_Mtei : list (positive * positive * N * N) :=
  [((1, 29)%positive, 0, 1); ((73, 30)%positive, 0, 1); ((74, 31)%positive, 0, 1); ((79, 43)%positive, 0, 1); ((80, 44)%positive, 0, 1); ((81, 45)%positive, 0, 1); ((82, 78)%positive, 0, 1); ((83, 29)%positive, 0, 0);
   ((83, 43)%positive, 0, 0); ((86, 29)%positive, 0, 1); ((86, 43)%positive, 0, 1); ((86, 83)%positive, 0, 1); ((87, 84)%positive, 0, 1); ((88, 85)%positive, 0, 1)]%N.
Definition dists_from_Newa : list (positive * positive * N * N) :=
  [((5, 7)%positive, 0, 1); ((12, 5)%positive, 0, 0); ((12, 8)%positive, 0, 0); ((14, 5)%positive, 0, 1); ((14, 8)%positive, 0, 1); ((14, 12)%positive, 0, 1)]%N.
Definition dists_to_Newa : list (positive * positive * N * N) :=
  [((1, 53)%positive, 0, 1); ((123, 54)%positive, 0, 1); ((124, 55)%positive, 0, 1); ((125, 56)%positive, 0, 1); ((126, 57)%positive, 0, 1); ((127, 58)%positive, 0, 1); ((128, 59)%positive, 0, 1); ((141, 65)%positive, 0, 1);
   ((142, 66)%positive, 0, 1); ((143, 67)%positive, 0, 1); ((144, 68)%positive, 0, 1); ((145, 69)%positive, 0, 1); ((146, 70)%positive, 0, 1); ((147, 71)%positive, 0, 1); ((148, 138)%positive, 0, 1); ((149, 129)%positive, 0, 1);
   ((150, 130)%positive, 0, 1); ((153, 53)%positive, 0, 0); ((153, 65)%positive, 0, 0); ((160, 139)%positive, 0, 1); ((161, 140)%positive, 0, 1); ((162, 53)%positive, 0, 1); ((162, 65)%positive, 0, 1); ((162, 153)%positive, 0, 1);
   ((163, 154)%positive, 0, 1); ((164, 155)%positive, 0, 1); ((165, 156)%positive, 0, 1); ((166, 157)%positive, 0, 1); ((167, 158)%positive, 0, 1); ((168, 159)%positive, 0, 1); ((171, 169)%positive, 0, 1); ((172, 170)%positive, 0, 1)]%N.
Definition dists_from_Orya : list (positive * positive * N * N) :=
  [((5, 11)%positive, 0, 0); ((11, 13)%positive, 0, 1); ((24, 11)%positive, 0, 0); ((24, 14)%positive, 0, 0); ((26, 11)%positive, 0, 1); ((26, 14)%positive, 0, 1); ((26, 24)%positive, 0, 1)]%N.
Definition dists_to_Orya : list (positive * positive * N * N) :=
  [((1, 38)%positive, 0, 1); ((91, 39)%positive, 0, 1); ((92, 40)%positive, 0, 1); ((93, 41)%positive, 0, 1); ((94, 42)%positive, 0, 1); ((95, 43)%positive, 0, 1); ((96, 44)%positive, 0, 1); ((109, 48)%positive, 0, 1);
   ((110, 49)%positive, 0, 1); ((111, 50)%positive, 0, 1); ((112, 51)%positive, 0, 1); ((113, 52)%positive, 0, 1); ((114, 53)%positive, 0, 1); ((115, 54)%positive, 0, 1); ((116, 106)%positive, 0, 1); ((117, 97)%positive, 0, 1);
   ((118, 98)%positive, 0, 1); ((121, 38)%positive, 0, 0); ((121, 48)%positive, 0, 0); ((128, 107)%positive, 0, 1); ((129, 108)%positive, 0, 1); ((130, 38)%positive, 0, 1); ((130, 48)%positive, 0, 1); ((130, 121)%positive, 0, 1);
   ((131, 122)%positive, 0, 1); ((132, 123)%positive, 0, 1); ((133, 124)%positive, 0, 1); ((134, 125)%positive, 0, 1); ((135, 126)%positive, 0, 1); ((136, 127)%positive, 0, 1); ((139, 137)%positive, 0, 1); ((140, 138)%positive, 0, 1)]%N.
Definition dists_from_Sinh : list (positive * positive * N * N) :=
  [((5, 7)%positive, 0, 1); ((12, 5)%positive, 0, 0); ((12, 8)%positive, 0, 0); ((14, 5)%positive, 0, 1); ((14, 8)%positive, 0, 1); ((14, 12)%positive, 0, 1)]%N.
Definition dists_to_Sinh : list (positive * positive * N * N) :=
  [((1, 53)%positive, 0, 1); ((120, 54)%positive, 0, 1); ((121, 55)%positive, 0, 1); ((122, 56)%positive, 0, 1); ((123, 57)%positive, 0, 1); ((124, 58)%positive, 0, 1); ((125, 59)%positive, 0, 1); ((138, 62)%positive, 0, 1);
   ((139, 63)%positive, 0, 1); ((140, 64)%positive, 0, 1); ((141, 65)%positive, 0, 1); ((142, 66)%positive, 0, 1); ((143, 67)%positive, 0, 1); ((144, 68)%positive, 0, 1); ((145, 135)%positive, 0, 1); ((146, 126)%positive, 0, 1);
   ((147, 127)%positive, 0, 1); ((150, 53)%positive, 0, 0); ((150, 62)%positive, 0, 0); ((157, 136)%positive, 0, 1); ((158, 137)%positive, 0, 1); ((159, 53)%positive, 0, 1); ((159, 62)%positive, 0, 1); ((159, 150)%positive, 0, 1);
   ((160, 151)%positive, 0, 1); ((161, 152)%positive, 0, 1); ((162, 153)%positive, 0, 1); ((163, 154)%positive, 0, 1); ((164, 155)%positive, 0, 1); ((165, 156)%positive, 0, 1); ((168, 166)%positive, 0, 1); ((169, 167)%positive, 0, 1)]%N.
Definition dists_from_Sylo : list (positive * positive * N * N) :=
  [((1, 11)%positive, 0, 0); ((1, 12)%positive, 0, 0); ((5, 13)%positive, 0, 1); ((24, 5)%positive, 0, 0); ((24, 10)%positive, 0, 0); ((24, 14)%positive, 0, 0); ((25, 6)%positive, 0, 0); ((25, 15)%positive, 0, 0);
   ((26, 7)%positive, 0, 0); ((26, 16)%positive, 0, 0); ((27, 8)%positive, 0, 0); ((27, 17)%positive, 0, 0); ((28, 9)%positive, 0, 0); ((28, 18)%positive, 0, 0); ((32, 5)%positive, 0, 1); ((32, 10)%positive, 0, 1);
   ((32, 14)%positive, 0, 1); ((32, 24)%positive, 0, 1); ((33, 6)%positive, 0, 1); ((33, 15)%positive, 0, 1); ((33, 25)%positive, 0, 1); ((34, 7)%positive, 0, 1); ((34, 16)%positive, 0, 1); ((34, 26)%positive, 0, 1);
   ((35, 8)%positive, 0, 1); ((35, 17)%positive, 0, 1); ((35, 27)%positive, 0, 1); ((36, 9)%positive, 0, 1); ((36, 18)%positive, 0, 1); ((36, 28)%positive, 0, 1)]%N.
Definition dists_to_Sylo : list (positive * positive * N * N) :=
  [((1, 38)%positive, 0, 1); ((1, 41)%positive, 0, 0); ((1, 48)%positive, 0, 0); ((86, 42)%positive, 0, 1); ((87, 39)%positive, 0, 1); ((88, 40)%positive, 0, 1); ((89, 38)%positive, 0, 0); ((89, 45)%positive, 0, 0);
   ((94, 45)%positive, 0, 1); ((95, 49)%positive, 0, 1); ((96, 46)%positive, 0, 1); ((97, 47)%positive, 0, 1); ((98, 93)%positive, 0, 1); ((99, 38)%positive, 0, 0); ((99, 45)%positive, 0, 0); ((104, 38)%positive, 0, 1);
   ((104, 45)%positive, 0, 1); ((104, 99)%positive, 0, 1); ((105, 100)%positive, 0, 1); ((106, 101)%positive, 0, 1); ((107, 102)%positive, 0, 1); ((108, 103)%positive, 0, 1)]%N.
Definition dists_from_Takr : list (positive * positive * N * N) :=
  [((20, 22)%positive, 0, 1); ((42, 20)%positive, 0, 0); ((42, 23)%positive, 0, 0); ((44, 20)%positive, 0, 1); ((44, 23)%positive, 0, 1); ((44, 42)%positive, 0, 1)]%N.
Definition dists_to_Takr : list (positive * positive * N * N) :=
  [((1, 38)%positive, 0, 1); ((82, 39)%positive, 0, 1); ((83, 40)%positive, 0, 1); ((88, 43)%positive, 0, 1); ((89, 44)%positive, 0, 1); ((90, 45)%positive, 0, 1); ((91, 87)%positive, 0, 1); ((92, 38)%positive, 0, 0);
   ((92, 43)%positive, 0, 0); ((95, 38)%positive, 0, 1); ((95, 43)%positive, 0, 1); ((95, 92)%positive, 0, 1); ((96, 93)%positive, 0, 1); ((97, 94)%positive, 0, 1)]%N.
Definition dists_from_Taml : list (positive * positive * N * N) :=
  [((17, 19)%positive, 0, 1); ((36, 17)%positive, 0, 0); ((36, 20)%positive, 0, 0); ((38, 17)%positive, 0, 1); ((38, 20)%positive, 0, 1); ((38, 36)%positive, 0, 1)]%N.
Definition dists_to_Taml : list (positive * positive * N * N) :=
  [((1, 5)%positive, 0, 1); ((16, 6)%positive, 0, 1); ((17, 7)%positive, 0, 1); ((22, 10)%positive, 0, 1); ((23, 11)%positive, 0, 1); ((24, 12)%positive, 0, 1); ((25, 21)%positive, 0, 1); ((26, 5)%positive, 0, 0);
   ((26, 10)%positive, 0, 0); ((29, 5)%positive, 0, 1); ((29, 10)%positive, 0, 1); ((29, 26)%positive, 0, 1); ((30, 27)%positive, 0, 1); ((31, 28)%positive, 0, 1)]%N.
Definition dists_from_Telu : list (positive * positive * N * N) :=
  [((5, 7)%positive, 0, 1); ((12, 5)%positive, 0, 0); ((12, 8)%positive, 0, 0); ((14, 5)%positive, 0, 1); ((14, 8)%positive, 0, 1); ((14, 12)%positive, 0, 1)]%N.
Definition dists_to_Telu : list (positive * positive * N * N) :=
  [((1, 35)%positive, 0, 1); ((86, 36)%positive, 0, 1); ((87, 37)%positive, 0, 1); ((88, 38)%positive, 0, 1); ((89, 39)%positive, 0, 1); ((90, 40)%positive, 0, 1); ((91, 41)%positive, 0, 1); ((104, 46)%positive, 0, 1);
   ((105, 47)%positive, 0, 1); ((106, 48)%positive, 0, 1); ((107, 49)%positive, 0, 1); ((108, 50)%positive, 0, 1); ((109, 51)%positive, 0, 1); ((110, 52)%positive, 0, 1); ((111, 101)%positive, 0, 1); ((112, 92)%positive, 0, 1);
   ((113, 93)%positive, 0, 1); ((116, 35)%positive, 0, 0); ((116, 46)%positive, 0, 0); ((123, 102)%positive, 0, 1); ((124, 103)%positive, 0, 1); ((125, 35)%positive, 0, 1); ((125, 46)%positive, 0, 1); ((125, 116)%positive, 0, 1);
   ((126, 117)%positive, 0, 1); ((127, 118)%positive, 0, 1); ((128, 119)%positive, 0, 1); ((129, 120)%positive, 0, 1); ((130, 121)%positive, 0, 1); ((131, 122)%positive, 0, 1); ((134, 132)%positive, 0, 1); ((135, 133)%positive, 0, 1)]%N.
Definition dists_from_Tglg : list (positive * positive * N * N) :=
  [((5, 7)%positive, 0, 1); ((12, 5)%positive, 0, 0); ((12, 8)%positive, 0, 0); ((14, 5)%positive, 0, 1); ((14, 8)%positive, 0, 1); ((14, 12)%positive, 0, 1)]%N.
Definition dists_to_Tglg : list (positive * positive * N * N) :=
  [((1, 5)%positive, 0, 1); ((14, 8)%positive, 0, 1); ((15, 13)%positive, 0, 1); ((17, 16)%positive, 0, 1)]%N.
Definition dists_from_Thaa : list (positive * positive * N * N) :=
  [((2, 13)%positive, 0, 6); ((2, 80)%positive, 0, 6); ((3, 14)%positive, 0, 6); ((3, 81)%positive, 0, 6); ((4, 15)%positive, 0, 6); ((4, 82)%positive, 0, 6); ((5, 16)%positive, 0, 6); ((5, 83)%positive, 0, 6);
   ((6, 17)%positive, 0, 6); ((6, 84)%positive, 0, 6); ((7, 18)%positive, 0, 6); ((7, 85)%positive, 0, 6); ((8, 19)%positive, 0, 6); ((8, 86)%positive, 0, 6); ((9, 20)%positive, 0, 6); ((9, 87)%positive, 0, 6);
   ((10, 21)%positive, 0, 6); ((10, 88)%positive, 0, 6); ((11, 22)%positive, 0, 6); ((11, 89)%positive, 0, 6); ((12, 23)%positive, 0, 6); ((12, 90)%positive, 0, 6); ((92, 35)%positive, 0, 0); ((92, 48)%positive, 0, 0);
   ((93, 36)%positive, 0, 0); ((93, 49)%positive, 0, 0); ((94, 37)%positive, 0, 0); ((94, 50)%positive, 0, 0); ((95, 38)%positive, 0, 0); ((95, 51)%positive, 0, 0); ((96, 39)%positive, 0, 0); ((96, 52)%positive, 0, 0);
   ((97, 40)%positive, 0, 0); ((97, 53)%positive, 0, 0); ((98, 41)%positive, 0, 0); ((98, 54)%positive, 0, 0); ((99, 42)%positive, 0, 0); ((99, 55)%positive, 0, 0); ((100, 43)%positive, 0, 0); ((100, 56)%positive, 0, 0);
   ((101, 44)%positive, 0, 0); ((101, 57)%positive, 0, 0); ((104, 91)%positive, 0, 0); ((104, 102)%positive, 0, 0); ((105, 35)%positive, 0, 1); ((105, 48)%positive, 0, 1); ((105, 92)%positive, 0, 1); ((106, 36)%positive, 0, 1);
   ((106, 49)%positive, 0, 1); ((106, 93)%positive, 0, 1); ((107, 37)%positive, 0, 1); ((107, 50)%positive, 0, 1); ((107, 94)%positive, 0, 1); ((108, 38)%positive, 0, 1); ((108, 51)%positive, 0, 1); ((108, 95)%positive, 0, 1);
   ((109, 39)%positive, 0, 1); ((109, 52)%positive, 0, 1); ((109, 96)%positive, 0, 1); ((110, 40)%positive, 0, 1); ((110, 53)%positive, 0, 1); ((110, 97)%positive, 0, 1); ((111, 41)%positive, 0, 1); ((111, 54)%positive, 0, 1);
   ((111, 98)%positive, 0, 1); ((112, 42)%positive, 0, 1); ((112, 55)%positive, 0, 1); ((112, 99)%positive, 0, 1); ((113, 43)%positive, 0, 1); ((113, 56)%positive, 0, 1); ((113, 100)%positive, 0, 1); ((114, 44)%positive, 0, 1);
   ((114, 57)%positive, 0, 1); ((114, 101)%positive, 0, 1); ((115, 91)%positive, 0, 1); ((115, 102)%positive, 0, 1); ((115, 104)%positive, 0, 1)]%N.
Definition dists_to_Thaa : list (positive * positive * N * N) :=
  [((1, 53)%positive, 0, 1); ((2, 19)%positive, 0, 6); ((2, 91)%positive, 0, 6); ((3, 20)%positive, 0, 6); ((3, 92)%positive, 0, 6); ((4, 21)%positive, 0, 6); ((4, 93)%positive, 0, 6); ((5, 22)%positive, 0, 6);
   ((5, 94)%positive, 0, 6); ((6, 23)%positive, 0, 6); ((6, 95)%positive, 0, 6); ((7, 24)%positive, 0, 6); ((7, 96)%positive, 0, 6); ((8, 25)%positive, 0, 6); ((8, 97)%positive, 0, 6); ((9, 26)%positive, 0, 6);
   ((9, 98)%positive, 0, 6); ((10, 27)%positive, 0, 6); ((10, 99)%positive, 0, 6); ((11, 28)%positive, 0, 6); ((11, 100)%positive, 0, 6); ((12, 29)%positive, 0, 6); ((12, 101)%positive, 0, 6); ((13, 30)%positive, 0, 6);
   ((13, 102)%positive, 0, 6); ((14, 31)%positive, 0, 6); ((14, 103)%positive, 0, 6); ((15, 32)%positive, 0, 6); ((15, 104)%positive, 0, 6); ((16, 33)%positive, 0, 6); ((16, 105)%positive, 0, 6); ((17, 34)%positive, 0, 6);
   ((17, 106)%positive, 0, 6); ((18, 35)%positive, 0, 6); ((18, 107)%positive, 0, 6); ((110, 56)%positive, 0, 1); ((111, 109)%positive, 0, 1); ((113, 112)%positive, 0, 1)]%N.
Definition dists_from_Tirh : list (positive * positive * N * N) :=
  [((17, 19)%positive, 0, 1); ((36, 17)%positive, 0, 0); ((36, 20)%positive, 0, 0); ((38, 17)%positive, 0, 1); ((38, 20)%positive, 0, 1); ((38, 36)%positive, 0, 1)]%N.
Definition dists_to_Tirh : list (positive * positive * N * N) :=
  [((1, 38)%positive, 0, 1); ((93, 39)%positive, 0, 1); ((94, 40)%positive, 0, 1); ((95, 41)%positive, 0, 1); ((96, 42)%positive, 0, 1); ((97, 43)%positive, 0, 1); ((98, 44)%positive, 0, 1); ((111, 50)%positive, 0, 1);
   ((112, 51)%positive, 0, 1); ((113, 52)%positive, 0, 1); ((114, 53)%positive, 0, 1); ((115, 54)%positive, 0, 1); ((116, 55)%positive, 0, 1); ((117, 56)%positive, 0, 1); ((118, 108)%positive, 0, 1); ((119, 99)%positive, 0, 1);
   ((120, 100)%positive, 0, 1); ((123, 38)%positive, 0, 0); ((123, 50)%positive, 0, 0); ((130, 109)%positive, 0, 1); ((131, 110)%positive, 0, 1); ((132, 38)%positive, 0, 1); ((132, 50)%positive, 0, 1); ((132, 123)%positive, 0, 1);
   ((133, 124)%positive, 0, 1); ((134, 125)%positive, 0, 1); ((135, 126)%positive, 0, 1); ((136, 127)%positive, 0, 1); ((137, 128)%positive, 0, 1); ((138, 129)%positive, 0, 1); ((141, 139)%positive, 0, 1); ((142, 140)%positive, 0, 1)]%N.
Definition dists_from_Guru_nfc : list (positive * positive * N * N) :=
  [((26, 28)%positive, 0, 1); ((54, 26)%positive, 0, 0); ((54, 29)%positive, 0, 0); ((56, 26)%positive, 0, 1); ((56, 29)%positive, 0, 1); ((56, 54)%positive, 0, 1)]%N.
Definition dists_to_Guru_nfc : list (positive * positive * N * N) :=
  [((1, 35)%positive, 0, 1); ((78, 36)%positive, 0, 1); ((79, 37)%positive, 0, 1); ((84, 42)%positive, 0, 1); ((85, 43)%positive, 0, 1); ((86, 44)%positive, 0, 1); ((87, 83)%positive, 0, 1); ((88, 35)%positive, 0, 0);
   ((88, 42)%positive, 0, 0); ((91, 35)%positive, 0, 1); ((91, 42)%positive, 0, 1); ((91, 88)%positive, 0, 1); ((92, 89)%positive, 0, 1); ((93, 90)%positive, 0, 1)]%N.
Definition dists_from : list (list (positive * positive * N * N)) :=
  [dists_from_Beng; dists_from_Bugi; dists_from_Deva; dists_from_Gujr; dists_from_Guru; dists_from_Knda; dists_from_Lepc; dists_from_Limb; dists_from_Mlym; dists_from_Mtei; dists_from_Newa; dists_from_Orya; dists_from_Sinh; dists_from_Sylo; dists_from_Takr; dists_from_Taml; dists_from_Telu; dists_from_Tglg; dists_from_Thaa; dists_from_Tirh].
Definition dists_to : list (list (positive * positive * N * N)) :=
  [dists_to_Beng; dists_to_Bugi; dists_to_Deva; dists_to_Gujr; dists_to_Guru; dists_to_Knda; dists_to_Lepc; dists_to_Limb; dists_to_Mlym; dists_to_Mtei; dists_to_Newa; dists_to_Orya; dists_to_Sinh; dists_to_Sylo; dists_to_Takr; dists_to_Taml; dists_to_Telu; dists_to_Tglg; dists_to_Thaa; dists_to_Tirh].
