(** The table of space groups, src/spg_database.cpp 79-609, copied entry by entry: number,
    Schoenflies symbol, Hall symbol, international symbol, full and short symbols, choice,
    centring, number of the point group, Hall number. *)
From Coq Require Import ZArith String List.
From Verif Require Import PrimitiveModel.
Import ListNotations.
Local Open Scope string_scope.
Local Open Scope Z_scope.

Record spacegroup := Spg { number : Z; schoenflies : string; hall : string; international : string; full : string;
                           short : string; choice : string; centring : bravais; pointgroup : Z; hall_number : Z }.
Definition all_spacegroups : list spacegroup := [
  Spg 0 "" "" "" "" "" "" B_none 0 0;
  Spg 1 "C1^1" "P 1" "P 1" "P 1" "P1" "" B_P 1 1;
  Spg 2 "Ci^1" "-P 1" "P -1" "P -1" "P-1" "" B_P 2 2;
  Spg 3 "C2^1" "P 2y" "P 2 = P 1 2 1" "P 1 2 1" "P2" "b" B_P 3 3;
  Spg 3 "C2^1" "P 2" "P 2 = P 1 1 2" "P 1 1 2" "P2" "c" B_P 3 4;
  Spg 3 "C2^1" "P 2x" "P 2 = P 2 1 1" "P 2 1 1" "P2" "a" B_P 3 5;
  Spg 4 "C2^2" "P 2yb" "P 2_1 = P 1 2_1 1" "P 1 2_1 1" "P2_1" "b" B_P 3 6;
  Spg 4 "C2^2" "P 2c" "P 2_1 = P 1 1 2_1" "P 1 1 2_1" "P2_1" "c" B_P 3 7;
  Spg 4 "C2^2" "P 2xa" "P 2_1 = P 2_1 1 1" "P 2_1 1 1" "P2_1" "a" B_P 3 8;
  Spg 5 "C2^3" "C 2y" "C 2 = C 1 2 1" "C 1 2 1" "C2" "b1" B_C 3 9;
  Spg 5 "C2^3" "A 2y" "C 2 = A 1 2 1" "A 1 2 1" "C2" "b2" B_A 3 10;
  Spg 5 "C2^3" "I 2y" "C 2 = I 1 2 1" "I 1 2 1" "C2" "b3" B_I 3 11;
  Spg 5 "C2^3" "A 2" "C 2 = A 1 1 2" "A 1 1 2" "C2" "c1" B_A 3 12;
  Spg 5 "C2^3" "B 2" "C 2 = B 1 1 2 = B 2" "B 1 1 2" "C2" "c2" B_P 3 13;
  Spg 5 "C2^3" "I 2" "C 2 = I 1 1 2" "I 1 1 2" "C2" "c3" B_I 3 14;
  Spg 5 "C2^3" "B 2x" "C 2 = B 2 1 1" "B 2 1 1" "C2" "a1" B_P 3 15;
  Spg 5 "C2^3" "C 2x" "C 2 = C 2 1 1" "C 2 1 1" "C2" "a2" B_C 3 16;
  Spg 5 "C2^3" "I 2x" "C 2 = I 2 1 1" "I 2 1 1" "C2" "a3" B_I 3 17;
  Spg 6 "Cs^1" "P -2y" "P m = P 1 m 1" "P 1 m 1" "Pm" "b" B_P 4 18;
  Spg 6 "Cs^1" "P -2" "P m = P 1 1 m" "P 1 1 m" "Pm" "c" B_P 4 19;
  Spg 6 "Cs^1" "P -2x" "P m = P m 1 1" "P m 1 1" "Pm" "a" B_P 4 20;
  Spg 7 "Cs^2" "P -2yc" "P c = P 1 c 1" "P 1 c 1" "Pc" "b1" B_P 4 21;
  Spg 7 "Cs^2" "P -2yac" "P c = P 1 n 1" "P 1 n 1" "Pc" "b2" B_P 4 22;
  Spg 7 "Cs^2" "P -2ya" "P c = P 1 a 1" "P 1 a 1" "Pc" "b3" B_P 4 23;
  Spg 7 "Cs^2" "P -2a" "P c = P 1 1 a" "P 1 1 a" "Pc" "c1" B_P 4 24;
  Spg 7 "Cs^2" "P -2ab" "P c = P 1 1 n" "P 1 1 n" "Pc" "c2" B_P 4 25;
  Spg 7 "Cs^2" "P -2b" "P c = P 1 1 b = P b" "P 1 1 b" "Pc" "c3" B_P 4 26;
  Spg 7 "Cs^2" "P -2xb" "P c = P b 1 1" "P b 1 1" "Pc" "a1" B_P 4 27;
  Spg 7 "Cs^2" "P -2xbc" "P c = P n 1 1" "P n 1 1" "Pc" "a2" B_P 4 28;
  Spg 7 "Cs^2" "P -2xc" "P c = P c 1 1" "P c 1 1" "Pc" "a3" B_P 4 29;
  Spg 8 "Cs^3" "C -2y" "C m = C 1 m 1" "C 1 m 1" "Cm" "b1" B_C 4 30;
  Spg 8 "Cs^3" "A -2y" "C m = A 1 m 1" "A 1 m 1" "Cm" "b2" B_A 4 31;
  Spg 8 "Cs^3" "I -2y" "C m = I 1 m 1" "I 1 m 1" "Cm" "b3" B_I 4 32;
  Spg 8 "Cs^3" "A -2" "C m = A 1 1 m" "A 1 1 m" "Cm" "c1" B_A 4 33;
  Spg 8 "Cs^3" "B -2" "C m = B 1 1 m = B m" "B 1 1 m" "Cm" "c2" B_P 4 34;
  Spg 8 "Cs^3" "I -2" "C m = I 1 1 m" "I 1 1 m" "Cm" "c3" B_I 4 35;
  Spg 8 "Cs^3" "B -2x" "C m = B m 1 1" "B m 1 1" "Cm" "a1" B_P 4 36;
  Spg 8 "Cs^3" "C -2x" "C m = C m 1 1" "C m 1 1" "Cm" "a2" B_C 4 37;
  Spg 8 "Cs^3" "I -2x" "C m = I m 1 1" "I m 1 1" "Cm" "a3" B_I 4 38;
  Spg 9 "Cs^4" "C -2yc" "C c = C 1 c 1" "C 1 c 1" "Cc" "b1" B_C 4 39;
  Spg 9 "Cs^4" "A -2yac" "C c = A 1 n 1" "A 1 n 1" "Cc" "b2" B_A 4 40;
  Spg 9 "Cs^4" "I -2ya" "C c = I 1 a 1" "I 1 a 1" "Cc" "b3" B_I 4 41;
  Spg 9 "Cs^4" "A -2ya" "C c = A 1 a 1" "A 1 a 1" "Cc" "-b1" B_A 4 42;
  Spg 9 "Cs^4" "C -2ybc" "C c = C 1 n 1" "C 1 n 1" "Cc" "-b2" B_C 4 43;
  Spg 9 "Cs^4" "I -2yc" "C c = I 1 c 1" "I 1 c 1" "Cc" "-b3" B_I 4 44;
  Spg 9 "Cs^4" "A -2a" "C c = A 1 1 a" "A 1 1 a" "Cc" "c1" B_A 4 45;
  Spg 9 "Cs^4" "B -2bc" "C c = B 1 1 n" "B 1 1 n" "Cc" "c2" B_P 4 46;
  Spg 9 "Cs^4" "I -2b" "C c = I 1 1 b" "I 1 1 b" "Cc" "c3" B_I 4 47;
  Spg 9 "Cs^4" "B -2b" "C c = B 1 1 b = B b" "B 1 1 b" "Cc" "-c1" B_P 4 48;
  Spg 9 "Cs^4" "A -2ac" "C c = A 1 1 n" "A 1 1 n" "Cc" "-c2" B_A 4 49;
  Spg 9 "Cs^4" "I -2a" "C c = I 1 1 a" "I 1 1 a" "Cc" "-c3" B_I 4 50;
  Spg 9 "Cs^4" "B -2xb" "C c = B b 1 1" "B b 1 1" "Cc" "a1" B_P 4 51;
  Spg 9 "Cs^4" "C -2xbc" "C c = C n 1 1" "C n 1 1" "Cc" "a2" B_C 4 52;
  Spg 9 "Cs^4" "I -2xc" "C c = I c 1 1" "I c 1 1" "Cc" "a3" B_I 4 53;
  Spg 9 "Cs^4" "C -2xc" "C c = C c 1 1" "C c 1 1" "Cc" "-a1" B_C 4 54;
  Spg 9 "Cs^4" "B -2xbc" "C c = B n 1 1" "B n 1 1" "Cc" "-a2" B_P 4 55;
  Spg 9 "Cs^4" "I -2xb" "C c = I b 1 1" "I b 1 1" "Cc" "-a3" B_I 4 56;
  Spg 10 "C2h^1" "-P 2y" "P 2/m = P 1 2/m 1" "P 1 2/m 1" "P2/m" "b" B_P 5 57;
  Spg 10 "C2h^1" "-P 2" "P 2/m = P 1 1 2/m" "P 1 1 2/m" "P2/m" "c" B_P 5 58;
  Spg 10 "C2h^1" "-P 2x" "P 2/m = P 2/m 1 1" "P 2/m 1 1" "P2/m" "a" B_P 5 59;
  Spg 11 "C2h^2" "-P 2yb" "P 2_1/m = P 1 2_1/m 1" "P 1 2_1/m 1" "P2_1/m" "b" B_P 5 60;
  Spg 11 "C2h^2" "-P 2c" "P 2_1/m = P 1 1 2_1/m" "P 1 1 2_1/m" "P2_1/m" "c" B_P 5 61;
  Spg 11 "C2h^2" "-P 2xa" "P 2_1/m = P 2_1/m 1 1" "P 2_1/m 1 1" "P2_1/m" "a" B_P 5 62;
  Spg 12 "C2h^3" "-C 2y" "C 2/m = C 1 2/m 1" "C 1 2/m 1" "C2/m" "b1" B_C 5 63;
  Spg 12 "C2h^3" "-A 2y" "C 2/m = A 1 2/m 1" "A 1 2/m 1" "C2/m" "b2" B_A 5 64;
  Spg 12 "C2h^3" "-I 2y" "C 2/m = I 1 2/m 1" "I 1 2/m 1" "C2/m" "b3" B_I 5 65;
  Spg 12 "C2h^3" "-A 2" "C 2/m = A 1 1 2/m" "A 1 1 2/m" "C2/m" "c1" B_A 5 66;
  Spg 12 "C2h^3" "-B 2" "C 2/m = B 1 1 2/m = B 2/m" "B 1 1 2/m" "C2/m" "c2" B_P 5 67;
  Spg 12 "C2h^3" "-I 2" "C 2/m = I 1 1 2/m" "I 1 1 2/m" "C2/m" "c3" B_I 5 68;
  Spg 12 "C2h^3" "-B 2x" "C 2/m = B 2/m 1 1" "B 2/m 1 1" "C2/m" "a1" B_P 5 69;
  Spg 12 "C2h^3" "-C 2x" "C 2/m = C 2/m 1 1" "C 2/m 1 1" "C2/m" "a2" B_C 5 70;
  Spg 12 "C2h^3" "-I 2x" "C 2/m = I 2/m 1 1" "I 2/m 1 1" "C2/m" "a3" B_I 5 71;
  Spg 13 "C2h^4" "-P 2yc" "P 2/c = P 1 2/c 1" "P 1 2/c 1" "P2/c" "b1" B_P 5 72;
  Spg 13 "C2h^4" "-P 2yac" "P 2/c = P 1 2/n 1" "P 1 2/n 1" "P2/c" "b2" B_P 5 73;
  Spg 13 "C2h^4" "-P 2ya" "P 2/c = P 1 2/a 1" "P 1 2/a 1" "P2/c" "b3" B_P 5 74;
  Spg 13 "C2h^4" "-P 2a" "P 2/c = P 1 1 2/a" "P 1 1 2/a" "P2/c" "c1" B_P 5 75;
  Spg 13 "C2h^4" "-P 2ab" "P 2/c = P 1 1 2/n" "P 1 1 2/n" "P2/c" "c2" B_P 5 76;
  Spg 13 "C2h^4" "-P 2b" "P 2/c = P 1 1 2/b = P 2/b" "P 1 1 2/b" "P2/c" "c3" B_P 5 77;
  Spg 13 "C2h^4" "-P 2xb" "P 2/c = P 2/b 1 1" "P 2/b 1 1" "P2/c" "a1" B_P 5 78;
  Spg 13 "C2h^4" "-P 2xbc" "P 2/c = P 2/n 1 1" "P 2/n 1 1" "P2/c" "a2" B_P 5 79;
  Spg 13 "C2h^4" "-P 2xc" "P 2/c = P 2/c 1 1" "P 2/c 1 1" "P2/c" "a3" B_P 5 80;
  Spg 14 "C2h^5" "-P 2ybc" "P 2_1/c = P 1 2_1/c 1" "P 1 2_1/c 1" "P2_1/c" "b1" B_P 5 81;
  Spg 14 "C2h^5" "-P 2yn" "P 2_1/c = P 1 2_1/n 1" "P 1 2_1/n 1" "P2_1/c" "b2" B_P 5 82;
  Spg 14 "C2h^5" "-P 2yab" "P 2_1/c = P 1 2_1/a 1" "P 1 2_1/a 1" "P2_1/c" "b3" B_P 5 83;
  Spg 14 "C2h^5" "-P 2ac" "P 2_1/c = P 1 1 2_1/a" "P 1 1 2_1/a" "P2_1/c" "c1" B_P 5 84;
  Spg 14 "C2h^5" "-P 2n" "P 2_1/c = P 1 1 2_1/n" "P 1 1 2_1/n" "P2_1/c" "c2" B_P 5 85;
  Spg 14 "C2h^5" "-P 2bc" "P 2_1/c = P 1 1 2_1/b = P 2_1/b" "P 1 1 2_1/b" "P2_1/c" "c3" B_P 5 86;
  Spg 14 "C2h^5" "-P 2xab" "P 2_1/c = P 2_1/b 1 1" "P 2_1/b 1 1" "P2_1/c" "a1" B_P 5 87;
  Spg 14 "C2h^5" "-P 2xn" "P 2_1/c = P 2_1/n 1 1" "P 2_1/n 1 1" "P2_1/c" "a2" B_P 5 88;
  Spg 14 "C2h^5" "-P 2xac" "P 2_1/c = P 2_1/c 1 1" "P 2_1/c 1 1" "P2_1/c" "a3" B_P 5 89;
  Spg 15 "C2h^6" "-C 2yc" "C 2/c = C 1 2/c 1" "C 1 2/c 1" "C2/c" "b1" B_C 5 90;
  Spg 15 "C2h^6" "-A 2yac" "C 2/c = A 1 2/n 1" "A 1 2/n 1" "C2/c" "b2" B_A 5 91;
  Spg 15 "C2h^6" "-I 2ya" "C 2/c = I 1 2/a 1" "I 1 2/a 1" "C2/c" "b3" B_I 5 92;
  Spg 15 "C2h^6" "-A 2ya" "C 2/c = A 1 2/a 1" "A 1 2/a 1" "C2/c" "-b1" B_A 5 93;
  Spg 15 "C2h^6" "-C 2ybc" "C 2/c = C 1 2/n 1" "C 1 2/n 1" "C2/c" "-b2" B_C 5 94;
  Spg 15 "C2h^6" "-I 2yc" "C 2/c = I 1 2/c 1" "I 1 2/c 1" "C2/c" "-b3" B_I 5 95;
  Spg 15 "C2h^6" "-A 2a" "C 2/c = A 1 1 2/a" "A 1 1 2/a" "C2/c" "c1" B_A 5 96;
  Spg 15 "C2h^6" "-B 2bc" "C 2/c = B 1 1 2/n" "B 1 1 2/n" "C2/c" "c2" B_P 5 97;
  Spg 15 "C2h^6" "-I 2b" "C 2/c = I 1 1 2/b" "I 1 1 2/b" "C2/c" "c3" B_I 5 98;
  Spg 15 "C2h^6" "-B 2b" "C 2/c = B 1 1 2/b = B 2/b" "B 1 1 2/b" "C2/c" "-c1" B_P 5 99;
  Spg 15 "C2h^6" "-A 2ac" "C 2/c = A 1 1 2/n" "A 1 1 2/n" "C2/c" "-c2" B_A 5 100;
  Spg 15 "C2h^6" "-I 2a" "C 2/c = I 1 1 2/a" "I 1 1 2/a" "C2/c" "-c3" B_I 5 101;
  Spg 15 "C2h^6" "-B 2xb" "C 2/c = B 2/b 1 1" "B 2/b 1 1" "C2/c" "a1" B_P 5 102;
  Spg 15 "C2h^6" "-C 2xbc" "C 2/c = C 2/n 1 1" "C 2/n 1 1" "C2/c" "a2" B_C 5 103;
  Spg 15 "C2h^6" "-I 2xc" "C 2/c = I 2/c 1 1" "I 2/c 1 1" "C2/c" "a3" B_I 5 104;
  Spg 15 "C2h^6" "-C 2xc" "C 2/c = C 2/c 1 1" "C 2/c 1 1" "C2/c" "-a1" B_C 5 105;
  Spg 15 "C2h^6" "-B 2xbc" "C 2/c = B 2/n 1 1" "B 2/n 1 1" "C2/c" "-a2" B_P 5 106;
  Spg 15 "C2h^6" "-I 2xb" "C 2/c = I 2/b 1 1" "I 2/b 1 1" "C2/c" "-a3" B_I 5 107;
  Spg 16 "D2^1" "P 2 2" "P 2 2 2" "P 2 2 2" "P222" "" B_P 6 108;
  Spg 17 "D2^2" "P 2c 2" "P 2 2 2_1" "P 2 2 2_1" "P222_1" "" B_P 6 109;
  Spg 17 "D2^2" "P 2a 2a" "P 2_1 2 2" "P 2_1 2 2" "P2_122" "cab" B_P 6 110;
  Spg 17 "D2^2" "P 2 2b" "P 2 2_1 2" "P 2 2_1 2" "P22_12" "bca" B_P 6 111;
  Spg 18 "D2^3" "P 2 2ab" "P 2_1 2_1 2" "P 2_1 2_1 2" "P2_12_12" "" B_P 6 112;
  Spg 18 "D2^3" "P 2bc 2" "P 2 2_1 2_1" "P 2 2_1 2_1" "P22_12_1" "cab" B_P 6 113;
  Spg 18 "D2^3" "P 2ac 2ac" "P 2_1 2 2_1" "P 2_1 2 2_1" "P2_122_1" "bca" B_P 6 114;
  Spg 19 "D2^4" "P 2ac 2ab" "P 2_1 2_1 2_1" "P 2_1 2_1 2_1" "P2_12_12_1" "" B_P 6 115;
  Spg 20 "D2^5" "C 2c 2" "C 2 2 2_1" "C 2 2 2_1" "C222_1" "" B_C 6 116;
  Spg 20 "D2^5" "A 2a 2a" "A 2_1 2 2" "A 2_1 2 2" "A2_122" "cab" B_A 6 117;
  Spg 20 "D2^5" "B 2 2b" "B 2 2_1 2" "B 2 2_1 2" "B22_12" "bca" B_P 6 118;
  Spg 21 "D2^6" "C 2 2" "C 2 2 2" "C 2 2 2" "C222" "" B_C 6 119;
  Spg 21 "D2^6" "A 2 2" "A 2 2 2" "A 2 2 2" "A222" "cab" B_A 6 120;
  Spg 21 "D2^6" "B 2 2" "B 2 2 2" "B 2 2 2" "B222" "bca" B_P 6 121;
  Spg 22 "D2^7" "F 2 2" "F 2 2 2" "F 2 2 2" "F222" "" B_F 6 122;
  Spg 23 "D2^8" "I 2 2" "I 2 2 2" "I 2 2 2" "I222" "" B_I 6 123;
  Spg 24 "D2^9" "I 2b 2c" "I 2_1 2_1 2_1" "I 2_1 2_1 2_1" "I2_12_12_1" "" B_I 6 124;
  Spg 25 "C2v^1" "P 2 -2" "P m m 2" "P m m 2" "Pmm2" "" B_P 7 125;
  Spg 25 "C2v^1" "P -2 2" "P 2 m m" "P 2 m m" "P2mm" "cab" B_P 7 126;
  Spg 25 "C2v^1" "P -2 -2" "P m 2 m" "P m 2 m" "Pm2m" "bca" B_P 7 127;
  Spg 26 "C2v^2" "P 2c -2" "P m c 2_1" "P m c 2_1" "Pmc2_1" "" B_P 7 128;
  Spg 26 "C2v^2" "P 2c -2c" "P c m 2_1" "P c m 2_1" "Pcm2_1" "ba-c" B_P 7 129;
  Spg 26 "C2v^2" "P -2a 2a" "P 2_1 m a" "P 2_1 m a" "P2_1ma" "cab" B_P 7 130;
  Spg 26 "C2v^2" "P -2 2a" "P 2_1 a m" "P 2_1 a m" "P2_1am" "-cba" B_P 7 131;
  Spg 26 "C2v^2" "P -2 -2b" "P b 2_1 m" "P b 2_1 m" "Pb2_1m" "bca" B_P 7 132;
  Spg 26 "C2v^2" "P -2b -2" "P m 2_1 b" "P m 2_1 b" "Pm2_1b" "a-cb" B_P 7 133;
  Spg 27 "C2v^3" "P 2 -2c" "P c c 2" "P c c 2" "Pcc2" "" B_P 7 134;
  Spg 27 "C2v^3" "P -2a 2" "P 2 a a" "P 2 a a" "P2aa" "cab" B_P 7 135;
  Spg 27 "C2v^3" "P -2b -2b" "P b 2 b" "P b 2 b" "Pb2b" "bca" B_P 7 136;
  Spg 28 "C2v^4" "P 2 -2a" "P m a 2" "P m a 2" "Pma2" "" B_P 7 137;
  Spg 28 "C2v^4" "P 2 -2b" "P b m 2" "P b m 2" "Pbm2" "ba-c" B_P 7 138;
  Spg 28 "C2v^4" "P -2b 2" "P 2 m b" "P 2 m b" "P2mb" "cab" B_P 7 139;
  Spg 28 "C2v^4" "P -2c 2" "P 2 c m" "P 2 c m" "P2cm" "-cba" B_P 7 140;
  Spg 28 "C2v^4" "P -2c -2c" "P c 2 m" "P c 2 m" "Pc2m" "bca" B_P 7 141;
  Spg 28 "C2v^4" "P -2a -2a" "P m 2 a" "P m 2 a" "Pm2a" "a-cb" B_P 7 142;
  Spg 29 "C2v^5" "P 2c -2ac" "P c a 2_1" "P c a 2_1" "Pca2_1" "" B_P 7 143;
  Spg 29 "C2v^5" "P 2c -2b" "P b c 2_1" "P b c 2_1" "Pbc2_1" "ba-c" B_P 7 144;
  Spg 29 "C2v^5" "P -2b 2a" "P 2_1 a b" "P 2_1 a b" "P2_1ab" "cab" B_P 7 145;
  Spg 29 "C2v^5" "P -2ac 2a" "P 2_1 c a" "P 2_1 c a" "P2_1ca" "-cba" B_P 7 146;
  Spg 29 "C2v^5" "P -2bc -2c" "P c 2_1 b" "P c 2_1 b" "Pc2_1b" "bca" B_P 7 147;
  Spg 29 "C2v^5" "P -2a -2ab" "P b 2_1 a" "P b 2_1 a" "Pb2_1a" "a-cb" B_P 7 148;
  Spg 30 "C2v^6" "P 2 -2bc" "P n c 2" "P n c 2" "Pnc2" "" B_P 7 149;
  Spg 30 "C2v^6" "P 2 -2ac" "P c n 2" "P c n 2" "Pcn2" "ba-c" B_P 7 150;
  Spg 30 "C2v^6" "P -2ac 2" "P 2 n a" "P 2 n a" "P2na" "cab" B_P 7 151;
  Spg 30 "C2v^6" "P -2ab 2" "P 2 a n" "P 2 a n" "P2an" "-cba" B_P 7 152;
  Spg 30 "C2v^6" "P -2ab -2ab" "P b 2 n" "P b 2 n" "Pb2n" "bca" B_P 7 153;
  Spg 30 "C2v^6" "P -2bc -2bc" "P n 2 b" "P n 2 b" "Pn2b" "a-cb" B_P 7 154;
  Spg 31 "C2v^7" "P 2ac -2" "P m n 2_1" "P m n 2_1" "Pmn2_1" "" B_P 7 155;
  Spg 31 "C2v^7" "P 2bc -2bc" "P n m 2_1" "P n m 2_1" "Pnm2_1" "ba-c" B_P 7 156;
  Spg 31 "C2v^7" "P -2ab 2ab" "P 2_1 m n" "P 2_1 m n" "P2_1mn" "cab" B_P 7 157;
  Spg 31 "C2v^7" "P -2 2ac" "P 2_1 n m" "P 2_1 n m" "P2_1nm" "-cba" B_P 7 158;
  Spg 31 "C2v^7" "P -2 -2bc" "P n 2_1 m" "P n 2_1 m" "Pn2_1m" "bca" B_P 7 159;
  Spg 31 "C2v^7" "P -2ab -2" "P m 2_1 n" "P m 2_1 n" "Pm2_1n" "a-cb" B_P 7 160;
  Spg 32 "C2v^8" "P 2 -2ab" "P b a 2" "P b a 2" "Pba2" "" B_P 7 161;
  Spg 32 "C2v^8" "P -2bc 2" "P 2 c b" "P 2 c b" "P2cb" "cab" B_P 7 162;
  Spg 32 "C2v^8" "P -2ac -2ac" "P c 2 a" "P c 2 a" "Pc2a" "bca" B_P 7 163;
  Spg 33 "C2v^9" "P 2c -2n" "P n a 2_1" "P n a 2_1" "Pna2_1" "" B_P 7 164;
  Spg 33 "C2v^9" "P 2c -2ab" "P b n 2_1" "P b n 2_1" "Pbn2_1" "ba-c" B_P 7 165;
  Spg 33 "C2v^9" "P -2bc 2a" "P 2_1 n b" "P 2_1 n b" "P2_1nb" "cab" B_P 7 166;
  Spg 33 "C2v^9" "P -2n 2a" "P 2_1 c n" "P 2_1 c n" "P2_1cn" "-cba" B_P 7 167;
  Spg 33 "C2v^9" "P -2n -2ac" "P c 2_1 n" "P c 2_1 n" "Pc2_1n" "bca" B_P 7 168;
  Spg 33 "C2v^9" "P -2ac -2n" "P n 2_1 a" "P n 2_1 a" "Pn2_1a" "a-cb" B_P 7 169;
  Spg 34 "C2v^10" "P 2 -2n" "P n n 2" "P n n 2" "Pnn2" "" B_P 7 170;
  Spg 34 "C2v^10" "P -2n 2" "P 2 n n" "P 2 n n" "P2nn" "cab" B_P 7 171;
  Spg 34 "C2v^10" "P -2n -2n" "P n 2 n" "P n 2 n" "Pn2n" "bca" B_P 7 172;
  Spg 35 "C2v^11" "C 2 -2" "C m m 2" "C m m 2" "Cmm2" "" B_C 7 173;
  Spg 35 "C2v^11" "A -2 2" "A 2 m m" "A 2 m m" "A2mm" "cab" B_A 7 174;
  Spg 35 "C2v^11" "B -2 -2" "B m 2 m" "B m 2 m" "Bm2m" "bca" B_P 7 175;
  Spg 36 "C2v^12" "C 2c -2" "C m c 2_1" "C m c 2_1" "Cmc2_1" "" B_C 7 176;
  Spg 36 "C2v^12" "C 2c -2c" "C c m 2_1" "C c m 2_1" "Ccm2_1" "ba-c" B_C 7 177;
  Spg 36 "C2v^12" "A -2a 2a" "A 2_1 m a" "A 2_1 m a" "A2_1ma" "cab" B_A 7 178;
  Spg 36 "C2v^12" "A -2 2a" "A 2_1 a m" "A 2_1 a m" "A2_1am" "-cba" B_A 7 179;
  Spg 36 "C2v^12" "B -2 -2b" "B b 2_1 m" "B b 2_1 m" "Bb2_1m" "bca" B_P 7 180;
  Spg 36 "C2v^12" "B -2b -2" "B m 2_1 b" "B m 2_1 b" "Bm2_1b" "a-cb" B_P 7 181;
  Spg 37 "C2v^13" "C 2 -2c" "C c c 2" "C c c 2" "Ccc2" "" B_C 7 182;
  Spg 37 "C2v^13" "A -2a 2" "A 2 a a" "A 2 a a" "A2aa" "cab" B_A 7 183;
  Spg 37 "C2v^13" "B -2b -2b" "B b 2 b" "B b 2 b" "Bb2b" "bca" B_P 7 184;
  Spg 38 "C2v^14" "A 2 -2" "A m m 2" "A m m 2" "Amm2" "" B_A 7 185;
  Spg 38 "C2v^14" "B 2 -2" "B m m 2" "B m m 2" "Bmm2" "ba-c" B_P 7 186;
  Spg 38 "C2v^14" "B -2 2" "B 2 m m" "B 2 m m" "B2mm" "cab" B_P 7 187;
  Spg 38 "C2v^14" "C -2 2" "C 2 m m" "C 2 m m" "C2mm" "-cba" B_C 7 188;
  Spg 38 "C2v^14" "C -2 -2" "C m 2 m" "C m 2 m" "Cm2m" "bca" B_C 7 189;
  Spg 38 "C2v^14" "A -2 -2" "A m 2 m" "A m 2 m" "Am2m" "a-cb" B_A 7 190;
  Spg 39 "C2v^15" "A 2 -2c" "A e m 2" "A e m 2" "Aem2" "" B_A 7 191;
  Spg 39 "C2v^15" "B 2 -2c" "B m e 2" "B m e 2" "Bme2" "ba-c" B_P 7 192;
  Spg 39 "C2v^15" "B -2c 2" "B 2 e m" "B 2 e m" "B2em" "cab" B_P 7 193;
  Spg 39 "C2v^15" "C -2b 2" "C 2 m e" "C 2 m e" "C2me" "-cba" B_C 7 194;
  Spg 39 "C2v^15" "C -2b -2b" "C m 2 e" "C m 2 e" "Cm2e" "bca" B_C 7 195;
  Spg 39 "C2v^15" "A -2c -2c" "A e 2 m" "A e 2 m" "Ae2m" "a-cb" B_A 7 196;
  Spg 40 "C2v^16" "A 2 -2a" "A m a 2" "A m a 2" "Ama2" "" B_A 7 197;
  Spg 40 "C2v^16" "B 2 -2b" "B b m 2" "B b m 2" "Bbm2" "ba-c" B_P 7 198;
  Spg 40 "C2v^16" "B -2b 2" "B 2 m b" "B 2 m b" "B2mb" "cab" B_P 7 199;
  Spg 40 "C2v^16" "C -2c 2" "C 2 c m" "C 2 c m" "C2cm" "-cba" B_C 7 200;
  Spg 40 "C2v^16" "C -2c -2c" "C c 2 m" "C c 2 m" "Cc2m" "bca" B_C 7 201;
  Spg 40 "C2v^16" "A -2a -2a" "A m 2 a" "A m 2 a" "Am2a" "a-cb" B_A 7 202;
  Spg 41 "C2v^17" "A 2 -2ac" "A e a 2" "A e a 2" "Aea2" "" B_A 7 203;
  Spg 41 "C2v^17" "B 2 -2bc" "B b e 2" "B b e 2" "Bbe2" "ba-c" B_P 7 204;
  Spg 41 "C2v^17" "B -2bc 2" "B 2 e b" "B 2 e b" "B2eb" "cab" B_P 7 205;
  Spg 41 "C2v^17" "C -2bc 2" "C 2 c e" "C 2 c e" "C2ce" "-cba" B_C 7 206;
  Spg 41 "C2v^17" "C -2bc -2bc" "C c 2 e" "C c 2 e" "Cc2e" "bca" B_C 7 207;
  Spg 41 "C2v^17" "A -2ac -2ac" "A e 2 a" "A e 2 a" "Ae2a" "a-cb" B_A 7 208;
  Spg 42 "C2v^18" "F 2 -2" "F m m 2" "F m m 2" "Fmm2" "" B_F 7 209;
  Spg 42 "C2v^18" "F -2 2" "F 2 m m" "F 2 m m" "F2mm" "cab" B_F 7 210;
  Spg 42 "C2v^18" "F -2 -2" "F m 2 m" "F m 2 m" "Fm2m" "bca" B_F 7 211;
  Spg 43 "C2v^19" "F 2 -2d" "F d d 2" "F d d 2" "Fdd2" "" B_F 7 212;
  Spg 43 "C2v^19" "F -2d 2" "F 2 d d" "F 2 d d" "F2dd" "cab" B_F 7 213;
  Spg 43 "C2v^19" "F -2d -2d" "F d 2 d" "F d 2 d" "Fd2d" "bca" B_F 7 214;
  Spg 44 "C2v^20" "I 2 -2" "I m m 2" "I m m 2" "Imm2" "" B_I 7 215;
  Spg 44 "C2v^20" "I -2 2" "I 2 m m" "I 2 m m" "I2mm" "cab" B_I 7 216;
  Spg 44 "C2v^20" "I -2 -2" "I m 2 m" "I m 2 m" "Im2m" "bca" B_I 7 217;
  Spg 45 "C2v^21" "I 2 -2c" "I b a 2" "I b a 2" "Iba2" "" B_I 7 218;
  Spg 45 "C2v^21" "I -2a 2" "I 2 c b" "I 2 c b" "I2cb" "cab" B_I 7 219;
  Spg 45 "C2v^21" "I -2b -2b" "I c 2 a" "I c 2 a" "Ic2a" "bca" B_I 7 220;
  Spg 46 "C2v^22" "I 2 -2a" "I m a 2" "I m a 2" "Ima2" "" B_I 7 221;
  Spg 46 "C2v^22" "I 2 -2b" "I b m 2" "I b m 2" "Ibm2" "ba-c" B_I 7 222;
  Spg 46 "C2v^22" "I -2b 2" "I 2 m b" "I 2 m b" "I2mb" "cab" B_I 7 223;
  Spg 46 "C2v^22" "I -2c 2" "I 2 c m" "I 2 c m" "I2cm" "-cba" B_I 7 224;
  Spg 46 "C2v^22" "I -2c -2c" "I c 2 m" "I c 2 m" "Ic2m" "bca" B_I 7 225;
  Spg 46 "C2v^22" "I -2a -2a" "I m 2 a" "I m 2 a" "Im2a" "a-cb" B_I 7 226;
  Spg 47 "D2h^1" "-P 2 2" "P m m m" "P 2/m 2/m 2/m" "Pmmm" "" B_P 8 227;
  Spg 48 "D2h^2" "P 2 2 -1n" "P n n n" "P 2/n 2/n 2/n" "Pnnn" "1" B_P 8 228;
  Spg 48 "D2h^2" "-P 2ab 2bc" "P n n n" "P 2/n 2/n 2/n" "Pnnn" "2" B_P 8 229;
  Spg 49 "D2h^3" "-P 2 2c" "P c c m" "P 2/c 2/c 2/m" "Pccm" "" B_P 8 230;
  Spg 49 "D2h^3" "-P 2a 2" "P m a a" "P 2/m 2/a 2/a" "Pmaa" "cab" B_P 8 231;
  Spg 49 "D2h^3" "-P 2b 2b" "P b m b" "P 2/b 2/m 2/b" "Pbmb" "bca" B_P 8 232;
  Spg 50 "D2h^4" "P 2 2 -1ab" "P b a n" "P 2/b 2/a 2/n" "Pban" "1" B_P 8 233;
  Spg 50 "D2h^4" "-P 2ab 2b" "P b a n" "P 2/b 2/a 2/n" "Pban" "2" B_P 8 234;
  Spg 50 "D2h^4" "P 2 2 -1bc" "P n c b" "P 2/n 2/c 2/b" "Pncb" "1cab" B_P 8 235;
  Spg 50 "D2h^4" "-P 2b 2bc" "P n c b" "P 2/n 2/c 2/b" "Pncb" "2cab" B_P 8 236;
  Spg 50 "D2h^4" "P 2 2 -1ac" "P c n a" "P 2/c 2/n 2/a" "Pcna" "1bca" B_P 8 237;
  Spg 50 "D2h^4" "-P 2a 2c" "P c n a" "P 2/c 2/n 2/a" "Pcna" "2bca" B_P 8 238;
  Spg 51 "D2h^5" "-P 2a 2a" "P m m a" "P 2_1/m 2/m 2/a" "Pmma" "" B_P 8 239;
  Spg 51 "D2h^5" "-P 2b 2" "P m m b" "P 2/m 2_1/m 2/b" "Pmmb" "ba-c" B_P 8 240;
  Spg 51 "D2h^5" "-P 2 2b" "P b m m" "P 2/b 2_1/m 2/m" "Pbmm" "cab" B_P 8 241;
  Spg 51 "D2h^5" "-P 2c 2c" "P c m m" "P 2/c 2/m 2_1/m" "Pcmm" "-cba" B_P 8 242;
  Spg 51 "D2h^5" "-P 2c 2" "P m c m" "P 2/m 2/c 2_1/m" "Pmcm" "bca" B_P 8 243;
  Spg 51 "D2h^5" "-P 2 2a" "P m a m" "P 2_1/m 2/a 2/m" "Pmam" "a-cb" B_P 8 244;
  Spg 52 "D2h^6" "-P 2a 2bc" "P n n a" "P 2/n 2_1/n 2/a" "Pnna" "" B_P 8 245;
  Spg 52 "D2h^6" "-P 2b 2n" "P n n b" "P 2_1/n 2/n 2/b" "Pnnb" "ba-c" B_P 8 246;
  Spg 52 "D2h^6" "-P 2n 2b" "P b n n" "P 2/b 2/n 2_1/n" "Pbnn" "cab" B_P 8 247;
  Spg 52 "D2h^6" "-P 2ab 2c" "P c n n" "P 2/c 2_1/n 2/n" "Pcnn" "-cba" B_P 8 248;
  Spg 52 "D2h^6" "-P 2ab 2n" "P n c n" "P 2_1/n 2/c 2/n" "Pncn" "bca" B_P 8 249;
  Spg 52 "D2h^6" "-P 2n 2bc" "P n a n" "P 2/n 2/a 2_1/n" "Pnan" "a-cb" B_P 8 250;
  Spg 53 "D2h^7" "-P 2ac 2" "P m n a" "P 2/m 2/n 2_1/a" "Pmna" "" B_P 8 251;
  Spg 53 "D2h^7" "-P 2bc 2bc" "P n m b" "P 2/n 2/m 2_1/b" "Pnmb" "ba-c" B_P 8 252;
  Spg 53 "D2h^7" "-P 2ab 2ab" "P b m n" "P 2_1/b 2/m 2/n" "Pbmn" "cab" B_P 8 253;
  Spg 53 "D2h^7" "-P 2 2ac" "P c n m" "P 2_1/c 2/n 2/m" "Pcnm" "-cba" B_P 8 254;
  Spg 53 "D2h^7" "-P 2 2bc" "P n c m" "P 2/n 2_1/c 2/m" "Pncm" "bca" B_P 8 255;
  Spg 53 "D2h^7" "-P 2ab 2" "P m a n" "P 2/m 2_1/a 2/n" "Pman" "a-cb" B_P 8 256;
  Spg 54 "D2h^8" "-P 2a 2ac" "P c c a" "P 2_1/c 2/c 2/a" "Pcca" "" B_P 8 257;
  Spg 54 "D2h^8" "-P 2b 2c" "P c c b" "P 2/c 2_1/c 2/b" "Pccb" "ba-c" B_P 8 258;
  Spg 54 "D2h^8" "-P 2a 2b" "P b a a" "P 2/b 2_1/a 2/a" "Pbaa" "cab" B_P 8 259;
  Spg 54 "D2h^8" "-P 2ac 2c" "P c a a" "P 2/c 2/a 2_1/a" "Pcaa" "-cba" B_P 8 260;
  Spg 54 "D2h^8" "-P 2bc 2b" "P b c b" "P 2/b 2/c 2_1/b" "Pbcb" "bca" B_P 8 261;
  Spg 54 "D2h^8" "-P 2b 2ab" "P b a b" "P 2_1/b 2/a 2/b" "Pbab" "a-cb" B_P 8 262;
  Spg 55 "D2h^9" "-P 2 2ab" "P b a m" "P 2_1/b 2_1/a 2/m" "Pbam" "" B_P 8 263;
  Spg 55 "D2h^9" "-P 2bc 2" "P m c b" "P 2/m 2_1/c 2_1/b" "Pmcb" "cab" B_P 8 264;
  Spg 55 "D2h^9" "-P 2ac 2ac" "P c m a" "P 2_1/c 2/m 2_1/a" "Pcma" "bca" B_P 8 265;
  Spg 56 "D2h^10" "-P 2ab 2ac" "P c c n" "P 2_1/c 2_1/c 2/n" "Pccn" "" B_P 8 266;
  Spg 56 "D2h^10" "-P 2ac 2bc" "P n a a" "P 2/n 2_1/a 2_1/a" "Pnaa" "cab" B_P 8 267;
  Spg 56 "D2h^10" "-P 2bc 2ab" "P b n b" "P 2_1/b 2/n 2_1/b" "Pbnb" "bca" B_P 8 268;
  Spg 57 "D2h^11" "-P 2c 2b" "P b c m" "P 2/b 2_1/c 2_1/m" "Pbcm" "" B_P 8 269;
  Spg 57 "D2h^11" "-P 2c 2ac" "P c a m" "P 2_1/c 2/a 2_1/m" "Pcam" "ba-c" B_P 8 270;
  Spg 57 "D2h^11" "-P 2ac 2a" "P m c a" "P 2_1/m 2/c 2_1/a" "Pmca" "cab" B_P 8 271;
  Spg 57 "D2h^11" "-P 2b 2a" "P m a b" "P 2_1/m 2_1/a 2/b" "Pmab" "-cba" B_P 8 272;
  Spg 57 "D2h^11" "-P 2a 2ab" "P b m a" "P 2_1/b 2_1/m 2/a" "Pbma" "bca" B_P 8 273;
  Spg 57 "D2h^11" "-P 2bc 2c" "P c m b" "P 2/c 2_1/m 2_1/b" "Pcmb" "a-cb" B_P 8 274;
  Spg 58 "D2h^12" "-P 2 2n" "P n n m" "P 2_1/n 2_1/n 2/m" "Pnnm" "" B_P 8 275;
  Spg 58 "D2h^12" "-P 2n 2" "P m n n" "P 2/m 2_1/n 2_1/n" "Pmnn" "cab" B_P 8 276;
  Spg 58 "D2h^12" "-P 2n 2n" "P n m n" "P 2_1/n 2/m 2_1/n" "Pnmn" "bca" B_P 8 277;
  Spg 59 "D2h^13" "P 2 2ab -1ab" "P m m n" "P 2_1/m 2_1/m 2/n" "Pmmn" "1" B_P 8 278;
  Spg 59 "D2h^13" "-P 2ab 2a" "P m m n" "P 2_1/m 2_1/m 2/n" "Pmmn" "2" B_P 8 279;
  Spg 59 "D2h^13" "P 2bc 2 -1bc" "P n m m" "P 2/n 2_1/m 2_1/m" "Pnmm" "1cab" B_P 8 280;
  Spg 59 "D2h^13" "-P 2c 2bc" "P n m m" "P 2/n 2_1/m 2_1/m" "Pnmm" "2cab" B_P 8 281;
  Spg 59 "D2h^13" "P 2ac 2ac -1ac" "P m n m" "P 2_1/m 2/n 2_1/m" "Pmnm" "1bca" B_P 8 282;
  Spg 59 "D2h^13" "-P 2c 2a" "P m n m" "P 2_1/m 2/n 2_1/m" "Pmnm" "2bca" B_P 8 283;
  Spg 60 "D2h^14" "-P 2n 2ab" "P b c n" "P 2_1/b 2/c 2_1/n" "Pbcn" "" B_P 8 284;
  Spg 60 "D2h^14" "-P 2n 2c" "P c a n" "P 2/c 2_1/a 2_1/n" "Pcan" "ba-c" B_P 8 285;
  Spg 60 "D2h^14" "-P 2a 2n" "P n c a" "P 2_1/n 2_1/c 2/a" "Pnca" "cab" B_P 8 286;
  Spg 60 "D2h^14" "-P 2bc 2n" "P n a b" "P 2_1/n 2/a 2_1/b" "Pnab" "-cba" B_P 8 287;
  Spg 60 "D2h^14" "-P 2ac 2b" "P b n a" "P 2/b 2_1/n 2_1/a" "Pbna" "bca" B_P 8 288;
  Spg 60 "D2h^14" "-P 2b 2ac" "P c n b" "P 2_1/c 2_1/n 2/b" "Pcnb" "a-cb" B_P 8 289;
  Spg 61 "D2h^15" "-P 2ac 2ab" "P b c a" "P 2_1/b 2_1/c 2_1/a" "Pbca" "" B_P 8 290;
  Spg 61 "D2h^15" "-P 2bc 2ac" "P c a b" "P 2_1/c 2_1/a 2_1/b" "Pcab" "ba-c" B_P 8 291;
  Spg 62 "D2h^16" "-P 2ac 2n" "P n m a" "P 2_1/n 2_1/m 2_1/a" "Pnma" "" B_P 8 292;
  Spg 62 "D2h^16" "-P 2bc 2a" "P m n b" "P 2_1/m 2_1/n 2_1/b" "Pmnb" "ba-c" B_P 8 293;
  Spg 62 "D2h^16" "-P 2c 2ab" "P b n m" "P 2_1/b 2_1/n 2_1/m" "Pbnm" "cab" B_P 8 294;
  Spg 62 "D2h^16" "-P 2n 2ac" "P c m n" "P 2_1/c 2_1/m 2_1/n" "Pcmn" "-cba" B_P 8 295;
  Spg 62 "D2h^16" "-P 2n 2a" "P m c n" "P 2_1/m 2_1/c 2_1/n" "Pmcn" "bca" B_P 8 296;
  Spg 62 "D2h^16" "-P 2c 2n" "P n a m" "P 2_1/n 2_1/a 2_1/m" "Pnam" "a-cb" B_P 8 297;
  Spg 63 "D2h^17" "-C 2c 2" "C m c m" "C 2/m 2/c 2_1/m" "Cmcm" "" B_C 8 298;
  Spg 63 "D2h^17" "-C 2c 2c" "C c m m" "C 2/c 2/m 2_1/m" "Ccmm" "ba-c" B_C 8 299;
  Spg 63 "D2h^17" "-A 2a 2a" "A m m a" "A 2_1/m 2/m 2/a" "Amma" "cab" B_A 8 300;
  Spg 63 "D2h^17" "-A 2 2a" "A m a m" "A 2_1/m 2/a 2/m" "Amam" "-cba" B_A 8 301;
  Spg 63 "D2h^17" "-B 2 2b" "B b m m" "B 2/b 2_1/m 2/m" "Bbmm" "bca" B_P 8 302;
  Spg 63 "D2h^17" "-B 2b 2" "B m m b" "B 2/m 2_1/m 2/b" "Bmmb" "a-cb" B_P 8 303;
  Spg 64 "D2h^18" "-C 2bc 2" "C m c e" "C 2/m 2/c 2_1/e" "Cmce" "" B_C 8 304;
  Spg 64 "D2h^18" "-C 2bc 2bc" "C c m e" "C 2/c 2/m 2_1/e" "Ccme" "ba-c" B_C 8 305;
  Spg 64 "D2h^18" "-A 2ac 2ac" "A e m a" "A 2_1/e 2/m 2/a" "Aema" "cab" B_A 8 306;
  Spg 64 "D2h^18" "-A 2 2ac" "A e a m" "A 2_1/e 2/a 2/m" "Aeam" "-cba" B_A 8 307;
  Spg 64 "D2h^18" "-B 2 2bc" "B b e m" "B 2/b 2_1/e 2/m" "Bbem" "bca" B_P 8 308;
  Spg 64 "D2h^18" "-B 2bc 2" "B m e b" "B 2/m 2_1/e 2/b" "Bmeb" "a-cb" B_P 8 309;
  Spg 65 "D2h^19" "-C 2 2" "C m m m" "C 2/m 2/m 2/m" "Cmmm" "" B_C 8 310;
  Spg 65 "D2h^19" "-A 2 2" "A m m m" "A 2/m 2/m 2/m" "Ammm" "cab" B_A 8 311;
  Spg 65 "D2h^19" "-B 2 2" "B m m m" "B 2/m 2/m 2/m" "Bmmm" "bca" B_P 8 312;
  Spg 66 "D2h^20" "-C 2 2c" "C c c m" "C 2/c 2/c 2/m" "Cccm" "" B_C 8 313;
  Spg 66 "D2h^20" "-A 2a 2" "A m a a" "A 2/m 2/a 2/a" "Amaa" "cab" B_A 8 314;
  Spg 66 "D2h^20" "-B 2b 2b" "B b m b" "B 2/b 2/m 2/b" "Bbmb" "bca" B_P 8 315;
  Spg 67 "D2h^21" "-C 2b 2" "C m m e" "C 2/m 2/m 2/e" "Cmme" "" B_C 8 316;
  Spg 67 "D2h^21" "-C 2b 2b" "C m m e" "C 2/m 2/m 2/e" "Cmme" "ba-c" B_C 8 317;
  Spg 67 "D2h^21" "-A 2c 2c" "A e m m" "A 2/e 2/m 2/m" "Aemm" "cab" B_A 8 318;
  Spg 67 "D2h^21" "-A 2 2c" "A e m m" "A 2/e 2/m 2/m" "Aemm" "-cba" B_A 8 319;
  Spg 67 "D2h^21" "-B 2 2c" "B m e m" "B 2/m 2/e 2/m" "Bmem" "bca" B_P 8 320;
  Spg 67 "D2h^21" "-B 2c 2" "B m e m" "B 2/m 2/e 2/m" "Bmem" "a-cb" B_P 8 321;
  Spg 68 "D2h^22" "C 2 2 -1bc" "C c c e" "C 2/c 2/c 2/e" "Ccce" "1" B_C 8 322;
  Spg 68 "D2h^22" "-C 2b 2bc" "C c c e" "C 2/c 2/c 2/e" "Ccce" "2" B_C 8 323;
  Spg 68 "D2h^22" "C 2 2 -1bc" "C c c e" "C 2/c 2/c 2/e" "Ccce" "1ba-c" B_C 8 324;
  Spg 68 "D2h^22" "-C 2b 2c" "C c c e" "C 2/c 2/c 2/e" "Ccce" "2ba-c" B_C 8 325;
  Spg 68 "D2h^22" "A 2 2 -1ac" "A e a a" "A 2/e 2/a 2/a" "Aeaa" "1cab" B_A 8 326;
  Spg 68 "D2h^22" "-A 2a 2c" "A e a a" "A 2/e 2/a 2/a" "Aeaa" "2cab" B_A 8 327;
  Spg 68 "D2h^22" "A 2 2 -1ac" "A e a a" "A 2/e 2/a 2/a" "Aeaa" "1-cba" B_A 8 328;
  Spg 68 "D2h^22" "-A 2ac 2c" "A e a a" "A 2/e 2/a 2/a" "Aeaa" "2-cba" B_A 8 329;
  Spg 68 "D2h^22" "B 2 2 -1bc" "B b e b" "B 2/b 2/e 2/b" "Bbeb" "1bca" B_P 8 330;
  Spg 68 "D2h^22" "-B 2bc 2b" "B b c b" "B 2/b 2/e 2/b" "Bbcb" "2bca" B_P 8 331;
  Spg 68 "D2h^22" "B 2 2 -1bc" "B b e b" "B 2/b 2/e 2/b" "Bbeb" "1a-cb" B_P 8 332;
  Spg 68 "D2h^22" "-B 2b 2bc" "B b e b" "B 2/b 2/e 2/b" "Bbeb" "2a-cb" B_P 8 333;
  Spg 69 "D2h^23" "-F 2 2" "F m m m" "F 2/m 2/m 2/m" "Fmmm" "" B_F 8 334;
  Spg 70 "D2h^24" "F 2 2 -1d" "F d d d" "F 2/d 2/d 2/d" "Fddd" "1" B_F 8 335;
  Spg 70 "D2h^24" "-F 2uv 2vw" "F d d d" "F 2/d 2/d 2/d" "Fddd" "2" B_F 8 336;
  Spg 71 "D2h^25" "-I 2 2" "I m m m" "I 2/m 2/m 2/m" "Immm" "" B_I 8 337;
  Spg 72 "D2h^26" "-I 2 2c" "I b a m" "I 2/b 2/a 2/m" "Ibam" "" B_I 8 338;
  Spg 72 "D2h^26" "-I 2a 2" "I m c b" "I 2/m 2/c 2/b" "Imcb" "cab" B_I 8 339;
  Spg 72 "D2h^26" "-I 2b 2b" "I c m a" "I 2/c 2/m 2/a" "Icma" "bca" B_I 8 340;
  Spg 73 "D2h^27" "-I 2b 2c" "I b c a" "I 2/b 2/c 2/a" "Ibca" "" B_I 8 341;
  Spg 73 "D2h^27" "-I 2a 2b" "I c a b" "I 2/c 2/a 2/b" "Icab" "ba-c" B_I 8 342;
  Spg 74 "D2h^28" "-I 2b 2" "I m m a" "I 2/m 2/m 2/a" "Imma" "" B_I 8 343;
  Spg 74 "D2h^28" "-I 2a 2a" "I m m b" "I 2/m 2/m 2/b" "Immb" "ba-c" B_I 8 344;
  Spg 74 "D2h^28" "-I 2c 2c" "I b m m" "I 2/b 2/m 2/m" "Ibmm" "cab" B_I 8 345;
  Spg 74 "D2h^28" "-I 2 2b" "I c m m" "I 2/c 2/m 2/m" "Icmm" "-cba" B_I 8 346;
  Spg 74 "D2h^28" "-I 2 2a" "I m c m" "I 2/m 2/c 2/m" "Imcm" "bca" B_I 8 347;
  Spg 74 "D2h^28" "-I 2c 2" "I m a m" "I 2/m 2/a 2/m" "Imam" "a-cb" B_I 8 348;
  Spg 75 "C4^1" "P 4" "P 4" "P 4" "P4" "" B_P 9 349;
  Spg 76 "C4^2" "P 4w" "P 4_1" "P 4_1" "P4_1" "" B_P 9 350;
  Spg 77 "C4^3" "P 4c" "P 4_2" "P 4_2" "P4_2" "" B_P 9 351;
  Spg 78 "C4^4" "P 4cw" "P 4_3" "P 4_3" "P4_3" "" B_P 9 352;
  Spg 79 "C4^5" "I 4" "I 4" "I 4" "I4" "" B_I 9 353;
  Spg 80 "C4^6" "I 4bw" "I 4_1" "I 4_1" "I4_1" "" B_I 9 354;
  Spg 81 "S4^1" "P -4" "P -4" "P -4" "P-4" "" B_P 10 355;
  Spg 82 "S4^2" "I -4" "I -4" "I -4" "I-4" "" B_I 10 356;
  Spg 83 "C4h^1" "-P 4" "P 4/m" "P 4/m" "P4/m" "" B_P 11 357;
  Spg 84 "C4h^2" "-P 4c" "P 4_2/m" "P 4_2/m" "P4_2/m" "" B_P 11 358;
  Spg 85 "C4h^3" "P 4ab -1ab" "P 4/n" "P 4/n" "P4/n" "1" B_P 11 359;
  Spg 85 "C4h^3" "-P 4a" "P 4/n" "P 4/n" "P4/n" "2" B_P 11 360;
  Spg 86 "C4h^4" "P 4n -1n" "P 4_2/n" "P 4_2/n" "P4_2/n" "1" B_P 11 361;
  Spg 86 "C4h^4" "-P 4bc" "P 4_2/n" "P 4_2/n" "P4_2/n" "2" B_P 11 362;
  Spg 87 "C4h^5" "-I 4" "I 4/m" "I 4/m" "I4/m" "" B_I 11 363;
  Spg 88 "C4h^6" "I 4bw -1bw" "I 4_1/a" "I 4_1/a" "I4_1/a" "1" B_I 11 364;
  Spg 88 "C4h^6" "-I 4ad" "I 4_1/a" "I 4_1/a" "I4_1/a" "2" B_I 11 365;
  Spg 89 "D4^1" "P 4 2" "P 4 2 2" "P 4 2 2" "P422" "" B_P 12 366;
  Spg 90 "D4^2" "P 4ab 2ab" "P 4 2_1 2" "P 4 2_1 2" "P42_12" "" B_P 12 367;
  Spg 91 "D4^3" "P 4w 2c" "P 4_1 2 2" "P 4_1 2 2" "P4_122" "" B_P 12 368;
  Spg 92 "D4^4" "P 4abw 2nw" "P 4_1 2_1 2" "P 4_1 2_1 2" "P4_12_12" "" B_P 12 369;
  Spg 93 "D4^5" "P 4c 2" "P 4_2 2 2" "P 4_2 2 2" "P4_222" "" B_P 12 370;
  Spg 94 "D4^6" "P 4n 2n" "P 4_2 2_1 2" "P 4_2 2_1 2" "P4_22_12" "" B_P 12 371;
  Spg 95 "D4^7" "P 4cw 2c" "P 4_3 2 2" "P 4_3 2 2" "P4_322" "" B_P 12 372;
  Spg 96 "D4^8" "P 4nw 2abw" "P 4_3 2_1 2" "P 4_3 2_1 2" "P4_32_12" "" B_P 12 373;
  Spg 97 "D4^9" "I 4 2" "I 4 2 2" "I 4 2 2" "I422" "" B_I 12 374;
  Spg 98 "D4^10" "I 4bw 2bw" "I 4_1 2 2" "I 4_1 2 2" "I4_122" "" B_I 12 375;
  Spg 99 "C4v^1" "P 4 -2" "P 4 m m" "P 4 m m" "P4mm" "" B_P 13 376;
  Spg 100 "C4v^2" "P 4 -2ab" "P 4 b m" "P 4 b m" "P4bm" "" B_P 13 377;
  Spg 101 "C4v^3" "P 4c -2c" "P 4_2 c m" "P 4_2 c m" "P4_2cm" "" B_P 13 378;
  Spg 102 "C4v^4" "P 4n -2n" "P 4_2 n m" "P 4_2 n m" "P4_2nm" "" B_P 13 379;
  Spg 103 "C4v^5" "P 4 -2c" "P 4 c c" "P 4 c c" "P4cc" "" B_P 13 380;
  Spg 104 "C4v^6" "P 4 -2n" "P 4 n c" "P 4 n c" "P4nc" "" B_P 13 381;
  Spg 105 "C4v^7" "P 4c -2" "P 4_2 m c" "P 4_2 m c" "P4_2mc" "" B_P 13 382;
  Spg 106 "C4v^8" "P 4c -2ab" "P 4_2 b c" "P 4_2 b c" "P4_2bc" "" B_P 13 383;
  Spg 107 "C4v^9" "I 4 -2" "I 4 m m" "I 4 m m" "I4mm" "" B_I 13 384;
  Spg 108 "C4v^10" "I 4 -2c" "I 4 c m" "I 4 c m" "I4cm" "" B_I 13 385;
  Spg 109 "C4v^11" "I 4bw -2" "I 4_1 m d" "I 4_1 m d" "I4_1md" "" B_I 13 386;
  Spg 110 "C4v^12" "I 4bw -2c" "I 4_1 c d" "I 4_1 c d" "I4_1cd" "" B_I 13 387;
  Spg 111 "D2d^1" "P -4 2" "P -4 2 m" "P -4 2 m" "P-42m" "" B_P 14 388;
  Spg 112 "D2d^2" "P -4 2c" "P -4 2 c" "P -4 2 c" "P-42c" "" B_P 14 389;
  Spg 113 "D2d^3" "P -4 2ab" "P -4 2_1 m" "P -4 2_1 m" "P-42_1m" "" B_P 14 390;
  Spg 114 "D2d^4" "P -4 2n" "P -4 2_1 c" "P -4 2_1 c" "P-42_1c" "" B_P 14 391;
  Spg 115 "D2d^5" "P -4 -2" "P -4 m 2" "P -4 m 2" "P-4m2" "" B_P 14 392;
  Spg 116 "D2d^6" "P -4 -2c" "P -4 c 2" "P -4 c 2" "P-4c2" "" B_P 14 393;
  Spg 117 "D2d^7" "P -4 -2ab" "P -4 b 2" "P -4 b 2" "P-4b2" "" B_P 14 394;
  Spg 118 "D2d^8" "P -4 -2n" "P -4 n 2" "P -4 n 2" "P-4n2" "" B_P 14 395;
  Spg 119 "D2d^9" "I -4 -2" "I -4 m 2" "I -4 m 2" "I-4m2" "" B_I 14 396;
  Spg 120 "D2d^10" "I -4 -2c" "I -4 c 2" "I -4 c 2" "I-4c2" "" B_I 14 397;
  Spg 121 "D2d^11" "I -4 2" "I -4 2 m" "I -4 2 m" "I-42m" "" B_I 14 398;
  Spg 122 "D2d^12" "I -4 2bw" "I -4 2 d" "I -4 2 d" "I-42d" "" B_I 14 399;
  Spg 123 "D4h^1" "-P 4 2" "P 4/m m m" "P 4/m 2/m 2/m" "P4/mmm" "" B_P 15 400;
  Spg 124 "D4h^2" "-P 4 2c" "P 4/m c c" "P 4/m 2/c 2/c" "P4/mcc" "" B_P 15 401;
  Spg 125 "D4h^3" "P 4 2 -1ab" "P 4/n b m" "P 4/n 2/b 2/m" "P4/nbm" "1" B_P 15 402;
  Spg 125 "D4h^3" "-P 4a 2b" "P 4/n b m" "P 4/n 2/b 2/m" "P4/nbm" "2" B_P 15 403;
  Spg 126 "D4h^4" "P 4 2 -1n" "P 4/n n c" "P 4/n 2/n 2/c" "P4/nnc" "1" B_P 15 404;
  Spg 126 "D4h^4" "-P 4a 2bc" "P 4/n n c" "P 4/n 2/n 2/c" "P4/nnc" "2" B_P 15 405;
  Spg 127 "D4h^5" "-P 4 2ab" "P 4/m b m" "P 4/m 2_1/b m" "P4/mbm" "" B_P 15 406;
  Spg 128 "D4h^6" "-P 4 2n" "P 4/m n c" "P 4/m 2_1/n c" "P4/mnc" "" B_P 15 407;
  Spg 129 "D4h^7" "P 4ab 2ab -1ab" "P 4/n m m" "P 4/n 2_1/m m" "P4/nmm" "1" B_P 15 408;
  Spg 129 "D4h^7" "-P 4a 2a" "P 4/n m m" "P 4/n 2_1/m m" "P4/nmm" "2" B_P 15 409;
  Spg 130 "D4h^8" "P 4ab 2n -1ab" "P 4/n c c" "P 4/n 2_1/c c" "P4/ncc" "1" B_P 15 410;
  Spg 130 "D4h^8" "-P 4a 2ac" "P 4/n c c" "P 4/n 2_1/c c" "P4/ncc" "2" B_P 15 411;
  Spg 131 "D4h^9" "-P 4c 2" "P 4_2/m m c" "P 4_2/m 2/m 2/c" "P4_2/mmc" "" B_P 15 412;
  Spg 132 "D4h^10" "-P 4c 2c" "P 4_2/m c m" "P 4_2/m 2/c 2/m" "P4_2/mcm" "" B_P 15 413;
  Spg 133 "D4h^11" "P 4n 2c -1n" "P 4_2/n b c" "P 4_2/n 2/b 2/c" "P4_2/nbc" "1" B_P 15 414;
  Spg 133 "D4h^11" "-P 4ac 2b" "P 4_2/n b c" "P 4_2/n 2/b 2/c" "P4_2/nbc" "2" B_P 15 415;
  Spg 134 "D4h^12" "P 4n 2 -1n" "P 4_2/n n m" "P 4_2/n 2/n 2/m" "P4_2/nnm" "1" B_P 15 416;
  Spg 134 "D4h^12" "-P 4ac 2bc" "P 4_2/n n m" "P 4_2/n 2/n 2/m" "P4_2/nnm" "2" B_P 15 417;
  Spg 135 "D4h^13" "-P 4c 2ab" "P 4_2/m b c" "P 4_2/m 2_1/b 2/c" "P4_2/mbc" "" B_P 15 418;
  Spg 136 "D4h^14" "-P 4n 2n" "P 4_2/m n m" "P 4_2/m 2_1/n 2/m" "P4_2/mnm" "" B_P 15 419;
  Spg 137 "D4h^15" "P 4n 2n -1n" "P 4_2/n m c" "P 4_2/n 2_1/m 2/c" "P4_2/nmc" "1" B_P 15 420;
  Spg 137 "D4h^15" "-P 4ac 2a" "P 4_2/n m c" "P 4_2/n 2_1/m 2/c" "P4_2/nmc" "2" B_P 15 421;
  Spg 138 "D4h^16" "P 4n 2ab -1n" "P 4_2/n c m" "P 4_2/n 2_1/c 2/m" "P4_2/ncm" "1" B_P 15 422;
  Spg 138 "D4h^16" "-P 4ac 2ac" "P 4_2/n c m" "P 4_2/n 2_1/c 2/m" "P4_2/ncm" "2" B_P 15 423;
  Spg 139 "D4h^17" "-I 4 2" "I 4/m m m" "I 4/m 2/m 2/m" "I4/mmm" "" B_I 15 424;
  Spg 140 "D4h^18" "-I 4 2c" "I 4/m c m" "I 4/m 2/c 2/m" "I4/mcm" "" B_I 15 425;
  Spg 141 "D4h^19" "I 4bw 2bw -1bw" "I 4_1/a m d" "I 4_1/a 2/m 2/d" "I4_1/amd" "1" B_I 15 426;
  Spg 141 "D4h^19" "-I 4bd 2" "I 4_1/a m d" "I 4_1/a 2/m 2/d" "I4_1/amd" "2" B_I 15 427;
  Spg 142 "D4h^20" "I 4bw 2aw -1bw" "I 4_1/a c d" "I 4_1/a 2/c 2/d" "I4_1/acd" "1" B_I 15 428;
  Spg 142 "D4h^20" "-I 4bd 2c" "I 4_1/a c d" "I 4_1/a 2/c 2/d" "I4_1/acd" "2" B_I 15 429;
  Spg 143 "C3^1" "P 3" "P 3" "P 3" "P3" "" B_P 16 430;
  Spg 144 "C3^2" "P 31" "P 3_1" "P 3_1" "P3_1" "" B_P 16 431;
  Spg 145 "C3^3" "P 32" "P 3_2" "P 3_2" "P3_2" "" B_P 16 432;
  Spg 146 "C3^4" "R 3" "R 3" "R 3" "R3" "H" B_R 16 433;
  Spg 146 "C3^4" "P 3*" "R 3" "R 3" "R3" "R" B_P 16 434;
  Spg 147 "C3i^1" "-P 3" "P -3" "P -3" "P-3" "" B_P 17 435;
  Spg 148 "C3i^2" "-R 3" "R -3" "R -3" "R-3" "H" B_R 17 436;
  Spg 148 "C3i^2" "-P 3*" "R -3" "R -3" "R-3" "R" B_P 17 437;
  Spg 149 "D3^1" "P 3 2" "P 3 1 2" "P 3 1 2" "P312" "" B_P 18 438;
  Spg 150 "D3^2" "P 3 2""" "P 3 2 1" "P 3 2 1" "P321" "" B_P 18 439;
  Spg 151 "D3^3" "P 31 2c (0 0 1)" "P 3_1 1 2" "P 3_1 1 2" "P3_112" "" B_P 18 440;
  Spg 152 "D3^4" "P 31 2""" "P 3_1 2 1" "P 3_1 2 1" "P3_121" "" B_P 18 441;
  Spg 153 "D3^5" "P 32 2c (0 0 -1)" "P 3_2 1 2" "P 3_2 1 2" "P3_212" "" B_P 18 442;
  Spg 154 "D3^6" "P 32 2""" "P 3_2 2 1" "P 3_2 2 1" "P3_221" "" B_P 18 443;
  Spg 155 "D3^7" "R 3 2""" "R 3 2" "R 3 2" "R32" "H" B_R 18 444;
  Spg 155 "D3^7" "P 3* 2" "R 3 2" "R 3 2" "R32" "R" B_P 18 445;
  Spg 156 "C3v^1" "P 3 -2""" "P 3 m 1" "P 3 m 1" "P3m1" "" B_P 19 446;
  Spg 157 "C3v^2" "P 3 -2" "P 3 1 m" "P 3 1 m" "P31m" "" B_P 19 447;
  Spg 158 "C3v^3" "P 3 -2""c" "P 3 c 1" "P 3 c 1" "P3c1" "" B_P 19 448;
  Spg 159 "C3v^4" "P 3 -2c" "P 3 1 c" "P 3 1 c" "P31c" "" B_P 19 449;
  Spg 160 "C3v^5" "R 3 -2""" "R 3 m" "R 3 m" "R3m" "H" B_R 19 450;
  Spg 160 "C3v^5" "P 3* -2" "R 3 m" "R 3 m" "R3m" "R" B_P 19 451;
  Spg 161 "C3v^6" "R 3 -2""c" "R 3 c" "R 3 c" "R3c" "H" B_R 19 452;
  Spg 161 "C3v^6" "P 3* -2n" "R 3 c" "R 3 c" "R3c" "R" B_P 19 453;
  Spg 162 "D3d^1" "-P 3 2" "P -3 1 m" "P -3 1 2/m" "P-31m" "" B_P 20 454;
  Spg 163 "D3d^2" "-P 3 2c" "P -3 1 c" "P -3 1 2/c" "P-31c" "" B_P 20 455;
  Spg 164 "D3d^3" "-P 3 2""" "P -3 m 1" "P -3 2/m 1" "P-3m1" "" B_P 20 456;
  Spg 165 "D3d^4" "-P 3 2""c" "P -3 c 1" "P -3 2/c 1" "P-3c1" "" B_P 20 457;
  Spg 166 "D3d^5" "-R 3 2""" "R -3 m" "R -3 2/m" "R-3m" "H" B_R 20 458;
  Spg 166 "D3d^5" "-P 3* 2" "R -3 m" "R -3 2/m" "R-3m" "R" B_P 20 459;
  Spg 167 "D3d^6" "-R 3 2""c" "R -3 c" "R -3 2/c" "R-3c" "H" B_R 20 460;
  Spg 167 "D3d^6" "-P 3* 2n" "R -3 c" "R -3 2/c" "R-3c" "R" B_P 20 461;
  Spg 168 "C6^1" "P 6" "P 6" "P 6" "P6" "" B_P 21 462;
  Spg 169 "C6^2" "P 61" "P 6_1" "P 6_1" "P6_1" "" B_P 21 463;
  Spg 170 "C6^3" "P 65" "P 6_5" "P 6_5" "P6_5" "" B_P 21 464;
  Spg 171 "C6^4" "P 62" "P 6_2" "P 6_2" "P6_2" "" B_P 21 465;
  Spg 172 "C6^5" "P 64" "P 6_4" "P 6_4" "P6_4" "" B_P 21 466;
  Spg 173 "C6^6" "P 6c" "P 6_3" "P 6_3" "P6_3" "" B_P 21 467;
  Spg 174 "C3h^1" "P -6" "P -6" "P -6" "P-6" "" B_P 22 468;
  Spg 175 "C6h^1" "-P 6" "P 6/m" "P 6/m" "P6/m" "" B_P 23 469;
  Spg 176 "C6h^2" "-P 6c" "P 6_3/m" "P 6_3/m" "P6_3/m" "" B_P 23 470;
  Spg 177 "D6^1" "P 6 2" "P 6 2 2" "P 6 2 2" "P622" "" B_P 24 471;
  Spg 178 "D6^2" "P 61 2 (0 0 -1)" "P 6_1 2 2" "P 6_1 2 2" "P6_122" "" B_P 24 472;
  Spg 179 "D6^3" "P 65 2 (0 0 1)" "P 6_5 2 2" "P 6_5 2 2" "P6_522" "" B_P 24 473;
  Spg 180 "D6^4" "P 62 2c (0 0 1)" "P 6_2 2 2" "P 6_2 2 2" "P6_222" "" B_P 24 474;
  Spg 181 "D6^5" "P 64 2c (0 0 -1)" "P 6_4 2 2" "P 6_4 2 2" "P6_422" "" B_P 24 475;
  Spg 182 "D6^6" "P 6c 2c" "P 6_3 2 2" "P 6_3 2 2" "P6_322" "" B_P 24 476;
  Spg 183 "C6v^1" "P 6 -2" "P 6 m m" "P 6 m m" "P6mm" "" B_P 25 477;
  Spg 184 "C6v^2" "P 6 -2c" "P 6 c c" "P 6 c c" "P6cc" "" B_P 25 478;
  Spg 185 "C6v^3" "P 6c -2" "P 6_3 c m" "P 6_3 c m" "P6_3cm" "" B_P 25 479;
  Spg 186 "C6v^4" "P 6c -2c" "P 6_3 m c" "P 6_3 m c" "P6_3mc" "" B_P 25 480;
  Spg 187 "D3h^1" "P -6 2" "P -6 m 2" "P -6 m 2" "P-6m2" "" B_P 26 481;
  Spg 188 "D3h^2" "P -6c 2" "P -6 c 2" "P -6 c 2" "P-6c2" "" B_P 26 482;
  Spg 189 "D3h^3" "P -6 -2" "P -6 2 m" "P -6 2 m" "P-62m" "" B_P 26 483;
  Spg 190 "D3h^4" "P -6c -2c" "P -6 2 c" "P -6 2 c" "P-62c" "" B_P 26 484;
  Spg 191 "D6h^1" "-P 6 2" "P 6/m m m" "P 6/m 2/m 2/m" "P6/mmm" "" B_P 27 485;
  Spg 192 "D6h^2" "-P 6 2c" "P 6/m c c" "P 6/m 2/c 2/c" "P6/mcc" "" B_P 27 486;
  Spg 193 "D6h^3" "-P 6c 2" "P 6_3/m c m" "P 6_3/m 2/c 2/m" "P6_3/mcm" "" B_P 27 487;
  Spg 194 "D6h^4" "-P 6c 2c" "P 6_3/m m c" "P 6_3/m 2/m 2/c" "P6_3/mmc" "" B_P 27 488;
  Spg 195 "T^1" "P 2 2 3" "P 2 3" "P 2 3" "P23" "" B_P 28 489;
  Spg 196 "T^2" "F 2 2 3" "F 2 3" "F 2 3" "F23" "" B_F 28 490;
  Spg 197 "T^3" "I 2 2 3" "I 2 3" "I 2 3" "I23" "" B_I 28 491;
  Spg 198 "T^4" "P 2ac 2ab 3" "P 2_1 3" "P 2_1 3" "P2_13" "" B_P 28 492;
  Spg 199 "T^5" "I 2b 2c 3" "I 2_1 3" "I 2_1 3" "I2_13" "" B_I 28 493;
  Spg 200 "Th^1" "-P 2 2 3" "P m -3" "P 2/m -3" "Pm-3" "" B_P 29 494;
  Spg 201 "Th^2" "P 2 2 3 -1n" "P n -3" "P 2/n -3" "Pn-3" "1" B_P 29 495;
  Spg 201 "Th^2" "-P 2ab 2bc 3" "P n -3" "P 2/n -3" "Pn-3" "2" B_P 29 496;
  Spg 202 "Th^3" "-F 2 2 3" "F m -3" "F 2/m -3" "Fm-3" "" B_F 29 497;
  Spg 203 "Th^4" "F 2 2 3 -1d" "F d -3" "F 2/d -3" "Fd-3" "1" B_F 29 498;
  Spg 203 "Th^4" "-F 2uv 2vw 3" "F d -3" "F 2/d -3" "Fd-3" "2" B_F 29 499;
  Spg 204 "Th^5" "-I 2 2 3" "I m -3" "I 2/m -3" "Im-3" "" B_I 29 500;
  Spg 205 "Th^6" "-P 2ac 2ab 3" "P a -3" "P 2_1/a -3" "Pa-3" "" B_P 29 501;
  Spg 206 "Th^7" "-I 2b 2c 3" "I a -3" "I 2_1/a -3" "Ia-3" "" B_I 29 502;
  Spg 207 "O^1" "P 4 2 3" "P 4 3 2" "P 4 3 2" "P432" "" B_P 30 503;
  Spg 208 "O^2" "P 4n 2 3" "P 4_2 3 2" "P 4_2 3 2" "P4_232" "" B_P 30 504;
  Spg 209 "O^3" "F 4 2 3" "F 4 3 2" "F 4 3 2" "F432" "" B_F 30 505;
  Spg 210 "O^4" "F 4d 2 3" "F 4_1 3 2" "F 4_1 3 2" "F4_132" "" B_F 30 506;
  Spg 211 "O^5" "I 4 2 3" "I 4 3 2" "I 4 3 2" "I432" "" B_I 30 507;
  Spg 212 "O^6" "P 4acd 2ab 3" "P 4_3 3 2" "P 4_3 3 2" "P4_332" "" B_P 30 508;
  Spg 213 "O^7" "P 4bd 2ab 3" "P 4_1 3 2" "P 4_1 3 2" "P4_132" "" B_P 30 509;
  Spg 214 "O^8" "I 4bd 2c 3" "I 4_1 3 2" "I 4_1 3 2" "I4_132" "" B_I 30 510;
  Spg 215 "Td^1" "P -4 2 3" "P -4 3 m" "P -4 3 m" "P-43m" "" B_P 31 511;
  Spg 216 "Td^2" "F -4 2 3" "F -4 3 m" "F -4 3 m" "F-43m" "" B_F 31 512;
  Spg 217 "Td^3" "I -4 2 3" "I -4 3 m" "I -4 3 m" "I-43m" "" B_I 31 513;
  Spg 218 "Td^4" "P -4n 2 3" "P -4 3 n" "P -4 3 n" "P-43n" "" B_P 31 514;
  Spg 219 "Td^5" "F -4c 2 3" "F -4 3 c" "F -4 3 c" "F-43c" "" B_F 31 515;
  Spg 220 "Td^6" "I -4bd 2c 3" "I -4 3 d" "I -4 3 d" "I-43d" "" B_I 31 516;
  Spg 221 "Oh^1" "-P 4 2 3" "P m -3 m" "P 4/m -3 2/m" "Pm-3m" "" B_P 32 517;
  Spg 222 "Oh^2" "P 4 2 3 -1n" "P n -3 n" "P 4/n -3 2/n" "Pn-3n" "1" B_P 32 518;
  Spg 222 "Oh^2" "-P 4a 2bc 3" "P n -3 n" "P 4/n -3 2/n" "Pn-3n" "2" B_P 32 519;
  Spg 223 "Oh^3" "-P 4n 2 3" "P m -3 n" "P 4_2/m -3 2/n" "Pm-3n" "" B_P 32 520;
  Spg 224 "Oh^4" "P 4n 2 3 -1n" "P n -3 m" "P 4_2/n -3 2/m" "Pn-3m" "1" B_P 32 521;
  Spg 224 "Oh^4" "-P 4bc 2bc 3" "P n -3 m" "P 4_2/n -3 2/m" "Pn-3m" "2" B_P 32 522;
  Spg 225 "Oh^5" "-F 4 2 3" "F m -3 m" "F 4/m -3 2/m" "Fm-3m" "" B_F 32 523;
  Spg 226 "Oh^6" "-F 4c 2 3" "F m -3 c" "F 4/m -3 2/c" "Fm-3c" "" B_F 32 524;
  Spg 227 "Oh^7" "F 4d 2 3 -1d" "F d -3 m" "F 4_1/d -3 2/m" "Fd-3m" "1" B_F 32 525;
  Spg 227 "Oh^7" "-F 4vw 2vw 3" "F d -3 m" "F 4_1/d -3 2/m" "Fd-3m" "2" B_F 32 526;
  Spg 228 "Oh^8" "F 4d 2 3 -1cd" "F d -3 c" "F 4_1/d -3 2/c" "Fd-3c" "1" B_F 32 527;
  Spg 228 "Oh^8" "-F 4cvw 2vw 3" "F d -3 c" "F 4_1/d -3 2/c" "Fd-3c" "2" B_F 32 528;
  Spg 229 "Oh^9" "-I 4 2 3" "I m -3 m" "I 4/m -3 2/m" "Im-3m" "" B_I 32 529;
  Spg 230 "Oh^10" "-I 4bd 2c 3" "I a -3 d" "I 4_1/a -3 2/d" "Ia-3d" "" B_I 32 530
].
