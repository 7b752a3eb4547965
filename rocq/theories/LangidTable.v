(** The tables of include/stdex/langid.hpp, generated by tools/gen_langid.py: names (100-534) and codes (552-986). *)
From Verif Require Import Base.

(** langid.hpp:100-534 *)
Definition lang_names : list (list Z * Z) := [
  ([97; 102; 45; 90; 65], 1078);
  ([97; 102], 54);
  ([97; 109; 45; 69; 84], 1118);
  ([97; 109], 94);
  ([97; 114; 45; 65; 69], 14337);
  ([97; 114; 45; 66; 72], 15361);
  ([97; 114; 45; 68; 90], 5121);
  ([97; 114; 45; 69; 71], 3073);
  ([97; 114; 45; 73; 81], 2049);
  ([97; 114; 45; 74; 79], 11265);
  ([97; 114; 45; 75; 87], 13313);
  ([97; 114; 45; 76; 66], 12289);
  ([97; 114; 45; 76; 89], 4097);
  ([97; 114; 45; 77; 65], 6145);
  ([97; 114; 45; 79; 77], 8193);
  ([97; 114; 45; 81; 65], 16385);
  ([97; 114; 45; 83; 65], 1025);
  ([97; 114; 45; 83; 89], 10241);
  ([97; 114; 45; 84; 78], 7169);
  ([97; 114; 45; 89; 69], 9217);
  ([97; 114], 1);
  ([97; 114; 110; 45; 67; 76], 1146);
  ([97; 114; 110], 122);
  ([97; 115; 45; 73; 78], 1101);
  ([97; 115], 77);
  ([97; 122; 45; 67; 121; 114; 108; 45; 65; 90], 29740);
  ([97; 122; 45; 67; 121; 114; 108; 45; 65; 90], 2092);
  ([97; 122; 45; 76; 97; 116; 110; 45; 65; 90], 1068);
  ([97; 122; 45; 76; 97; 116; 110; 45; 65; 90], 30764);
  ([97; 122], 44);
  ([98; 97; 45; 82; 85], 1133);
  ([98; 97], 109);
  ([98; 101; 45; 66; 89], 1059);
  ([98; 101], 35);
  ([98; 103; 45; 66; 71], 1026);
  ([98; 103], 2);
  ([98; 105; 110; 45; 78; 71], 1126);
  ([98; 105; 110], 102);
  ([98; 110; 45; 66; 68], 2117);
  ([98; 110; 45; 73; 78], 1093);
  ([98; 110], 69);
  ([98; 111; 45; 67; 78], 1105);
  ([98; 111], 81);
  ([98; 114; 45; 70; 82], 1150);
  ([98; 114], 126);
  ([98; 115; 45; 67; 121; 114; 108; 45; 66; 65], 8218);
  ([98; 115; 45; 67; 121; 114; 108; 45; 66; 65], 25626);
  ([98; 115; 45; 76; 97; 116; 110; 45; 66; 65], 5146);
  ([98; 115; 45; 76; 97; 116; 110; 45; 66; 65], 26650);
  ([98; 115; 45; 76; 97; 116; 110; 45; 66; 65], 30746);
  ([99; 97; 45; 69; 83; 45; 118; 97; 108; 101; 110; 99; 105; 97], 2051);
  ([99; 97; 45; 69; 83], 1027);
  ([99; 97], 3);
  ([99; 104; 114; 45; 67; 104; 101; 114; 45; 85; 83], 1116);
  ([99; 104; 114; 45; 67; 104; 101; 114; 45; 85; 83], 31836);
  ([99; 104; 114], 92);
  ([99; 111; 45; 70; 82], 1155);
  ([99; 111], 131);
  ([99; 115; 45; 67; 90], 1029);
  ([99; 115], 5);
  ([99; 121; 45; 71; 66], 1106);
  ([99; 121], 82);
  ([100; 97; 45; 68; 75], 1030);
  ([100; 97], 6);
  ([100; 101; 45; 65; 84], 3079);
  ([100; 101; 45; 67; 72], 2055);
  ([100; 101; 45; 68; 69], 1031);
  ([100; 101; 45; 76; 73], 5127);
  ([100; 101; 45; 76; 85], 4103);
  ([100; 101], 7);
  ([100; 115; 98; 45; 68; 69], 31790);
  ([100; 115; 98; 45; 68; 69], 2094);
  ([100; 118; 45; 77; 86], 1125);
  ([100; 118], 101);
  ([100; 122; 45; 66; 84], 3153);
  ([101; 108; 45; 71; 82], 1032);
  ([101; 108], 8);
  ([101; 110; 45; 48; 50; 57], 9225);
  ([101; 110; 45; 65; 69], 19465);
  ([101; 110; 45; 65; 85], 3081);
  ([101; 110; 45; 66; 90], 10249);
  ([101; 110; 45; 67; 65], 4105);
  ([101; 110; 45; 71; 66], 2057);
  ([101; 110; 45; 72; 75], 15369);
  ([101; 110; 45; 73; 68], 14345);
  ([101; 110; 45; 73; 69], 6153);
  ([101; 110; 45; 73; 78], 16393);
  ([101; 110; 45; 74; 77], 8201);
  ([101; 110; 45; 77; 89], 17417);
  ([101; 110; 45; 78; 90], 5129);
  ([101; 110; 45; 80; 72], 13321);
  ([101; 110; 45; 83; 71], 18441);
  ([101; 110; 45; 84; 84], 11273);
  ([101; 110; 45; 85; 83], 1033);
  ([101; 110; 45; 90; 65], 7177);
  ([101; 110; 45; 90; 87], 12297);
  ([101; 110], 9);
  ([101; 115; 45; 52; 49; 57], 22538);
  ([101; 115; 45; 65; 82], 11274);
  ([101; 115; 45; 66; 79], 16394);
  ([101; 115; 45; 67; 76], 13322);
  ([101; 115; 45; 67; 79], 9226);
  ([101; 115; 45; 67; 82], 5130);
  ([101; 115; 45; 67; 85], 23562);
  ([101; 115; 45; 68; 79], 7178);
  ([101; 115; 45; 69; 67], 12298);
  ([101; 115; 45; 69; 83; 95; 116; 114; 97; 100; 110; 108], 1034);
  ([101; 115; 45; 69; 83], 3082);
  ([101; 115; 45; 71; 84], 4106);
  ([101; 115; 45; 72; 78], 18442);
  ([101; 115; 45; 77; 88], 2058);
  ([101; 115; 45; 78; 73], 19466);
  ([101; 115; 45; 80; 65], 6154);
  ([101; 115; 45; 80; 69], 10250);
  ([101; 115; 45; 80; 82], 20490);
  ([101; 115; 45; 80; 89], 15370);
  ([101; 115; 45; 83; 86], 17418);
  ([101; 115; 45; 85; 83], 21514);
  ([101; 115; 45; 85; 89], 14346);
  ([101; 115; 45; 86; 69], 8202);
  ([101; 115], 10);
  ([101; 116; 45; 69; 69], 1061);
  ([101; 116], 37);
  ([101; 117; 45; 69; 83], 1069);
  ([101; 117], 45);
  ([102; 97; 45; 65; 70], 1164);
  ([102; 97; 45; 73; 82], 1065);
  ([102; 97], 41);
  ([102; 97], 140);
  ([102; 102; 45; 76; 97; 116; 110; 45; 78; 71], 1127);
  ([102; 102; 45; 76; 97; 116; 110; 45; 83; 78], 31847);
  ([102; 102; 45; 76; 97; 116; 110; 45; 83; 78], 2151);
  ([102; 102], 103);
  ([102; 105; 45; 70; 73], 1035);
  ([102; 105], 11);
  ([102; 105; 108; 45; 80; 72], 1124);
  ([102; 105; 108], 100);
  ([102; 111; 45; 70; 79], 1080);
  ([102; 111], 56);
  ([102; 114; 45; 48; 50; 57], 7180);
  ([102; 114; 45; 66; 69], 2060);
  ([102; 114; 45; 67; 65], 3084);
  ([102; 114; 45; 67; 68], 9228);
  ([102; 114; 45; 67; 72], 4108);
  ([102; 114; 45; 67; 73], 12300);
  ([102; 114; 45; 67; 77], 11276);
  ([102; 114; 45; 70; 82], 1036);
  ([102; 114; 45; 72; 84], 15372);
  ([102; 114; 45; 76; 85], 5132);
  ([102; 114; 45; 77; 65], 14348);
  ([102; 114; 45; 77; 67], 6156);
  ([102; 114; 45; 77; 76], 13324);
  ([102; 114; 45; 82; 69], 8204);
  ([102; 114; 45; 83; 78], 10252);
  ([102; 114], 12);
  ([102; 121; 45; 78; 76], 1122);
  ([102; 121], 98);
  ([103; 97; 45; 73; 69], 2108);
  ([103; 97], 60);
  ([103; 100; 45; 71; 66], 1169);
  ([103; 100], 145);
  ([103; 108; 45; 69; 83], 1110);
  ([103; 108], 86);
  ([103; 110; 45; 80; 89], 1140);
  ([103; 110], 116);
  ([103; 115; 119; 45; 70; 82], 1156);
  ([103; 115; 119], 132);
  ([103; 117; 45; 73; 78], 1095);
  ([103; 117], 71);
  ([104; 97; 45; 76; 97; 116; 110; 45; 78; 71], 1128);
  ([104; 97; 45; 76; 97; 116; 110; 45; 78; 71], 31848);
  ([104; 97], 104);
  ([104; 97; 119; 45; 85; 83], 1141);
  ([104; 97; 119], 117);
  ([104; 101; 45; 73; 76], 1037);
  ([104; 101], 13);
  ([104; 105; 45; 73; 78], 1081);
  ([104; 105], 57);
  ([104; 114; 45; 66; 65], 4122);
  ([104; 114; 45; 72; 82], 1050);
  ([104; 114], 26);
  ([104; 115; 98; 45; 68; 69], 1070);
  ([104; 115; 98], 46);
  ([104; 117; 45; 72; 85], 1038);
  ([104; 117], 14);
  ([104; 121; 45; 65; 77], 1067);
  ([104; 121], 43);
  ([105; 98; 98; 45; 78; 71], 1129);
  ([105; 98; 98], 105);
  ([105; 100; 45; 73; 68], 1057);
  ([105; 100], 33);
  ([105; 103; 45; 78; 71], 1136);
  ([105; 103], 112);
  ([105; 105; 45; 67; 78], 1144);
  ([105; 105], 120);
  ([105; 115; 45; 73; 83], 1039);
  ([105; 115], 15);
  ([105; 116; 45; 67; 72], 2064);
  ([105; 116; 45; 73; 84], 1040);
  ([105; 116], 16);
  ([105; 117; 45; 67; 97; 110; 115; 45; 67; 65], 1117);
  ([105; 117; 45; 67; 97; 110; 115; 45; 67; 65], 30813);
  ([105; 117; 45; 76; 97; 116; 110; 45; 67; 65], 31837);
  ([105; 117; 45; 76; 97; 116; 110; 45; 67; 65], 2141);
  ([105; 117], 93);
  ([106; 97; 45; 74; 80], 1041);
  ([106; 97], 17);
  ([107; 97; 45; 71; 69], 1079);
  ([107; 97], 55);
  ([107; 107; 45; 75; 90], 1087);
  ([107; 107], 63);
  ([107; 108; 45; 71; 76], 1135);
  ([107; 108], 111);
  ([107; 109; 45; 75; 72], 1107);
  ([107; 109], 83);
  ([107; 110; 45; 73; 78], 1099);
  ([107; 110], 75);
  ([107; 111; 45; 75; 82], 1042);
  ([107; 111], 18);
  ([107; 111; 107; 45; 73; 78], 1111);
  ([107; 111; 107], 87);
  ([107; 114; 45; 76; 97; 116; 110; 45; 78; 71], 1137);
  ([107; 114], 113);
  ([107; 115; 45; 65; 114; 97; 98; 45; 73; 78], 1120);
  ([107; 115; 45; 68; 101; 118; 97; 45; 73; 78], 2144);
  ([107; 115], 96);
  ([107; 117; 45; 65; 114; 97; 98; 45; 73; 81], 1170);
  ([107; 117; 45; 65; 114; 97; 98; 45; 73; 81], 31890);
  ([107; 117], 146);
  ([107; 121; 45; 75; 71], 1088);
  ([107; 121], 64);
  ([108; 97; 45; 86; 65], 1142);
  ([108; 97], 118);
  ([108; 98; 45; 76; 85], 1134);
  ([108; 98], 110);
  ([108; 111; 45; 76; 65], 1108);
  ([108; 111], 84);
  ([108; 116; 45; 76; 84], 1063);
  ([108; 116], 39);
  ([108; 118; 45; 76; 86], 1062);
  ([108; 118], 38);
  ([109; 105; 45; 78; 90], 1153);
  ([109; 105], 129);
  ([109; 107; 45; 77; 75], 1071);
  ([109; 107], 47);
  ([109; 108; 45; 73; 78], 1100);
  ([109; 108], 76);
  ([109; 110; 45; 77; 78], 1104);
  ([109; 110; 45; 77; 78], 30800);
  ([109; 110; 45; 77; 111; 110; 103; 45; 67; 78], 31824);
  ([109; 110; 45; 77; 111; 110; 103; 45; 67; 78], 2128);
  ([109; 110; 45; 77; 111; 110; 103; 45; 77; 78], 3152);
  ([109; 110], 80);
  ([109; 110; 105; 45; 73; 78], 1112);
  ([109; 110; 105], 88);
  ([109; 111; 104; 45; 67; 65], 1148);
  ([109; 111; 104], 124);
  ([109; 114; 45; 73; 78], 1102);
  ([109; 114], 78);
  ([109; 115; 45; 66; 78], 2110);
  ([109; 115; 45; 77; 89], 1086);
  ([109; 115], 62);
  ([109; 116; 45; 77; 84], 1082);
  ([109; 116], 58);
  ([109; 121; 45; 77; 77], 1109);
  ([109; 121], 85);
  ([110; 98; 45; 78; 79], 1044);
  ([110; 98; 45; 78; 79], 31764);
  ([110; 98], 20);
  ([110; 101; 45; 73; 78], 2145);
  ([110; 101; 45; 78; 80], 1121);
  ([110; 101], 97);
  ([110; 108; 45; 66; 69], 2067);
  ([110; 108; 45; 78; 76], 1043);
  ([110; 108], 19);
  ([110; 110; 45; 78; 79], 30740);
  ([110; 110; 45; 78; 79], 2068);
  ([110; 115; 111; 45; 90; 65], 1132);
  ([110; 115; 111], 108);
  ([111; 99; 45; 70; 82], 1154);
  ([111; 99], 130);
  ([111; 109; 45; 69; 84], 1138);
  ([111; 109], 114);
  ([111; 114; 45; 73; 78], 1096);
  ([111; 114], 72);
  ([112; 97; 45; 65; 114; 97; 98; 45; 80; 75], 31814);
  ([112; 97; 45; 65; 114; 97; 98; 45; 80; 75], 2118);
  ([112; 97; 45; 73; 78], 1094);
  ([112; 97], 70);
  ([112; 97; 112; 45; 48; 50; 57], 1145);
  ([112; 97; 112], 121);
  ([112; 108; 45; 80; 76], 1045);
  ([112; 108], 21);
  ([112; 115; 45; 65; 70], 1123);
  ([112; 115], 99);
  ([112; 116; 45; 66; 82], 1046);
  ([112; 116; 45; 80; 84], 2070);
  ([112; 116], 22);
  ([113; 112; 115; 45; 76; 97; 116; 110; 45; 120; 45; 115; 104], 2305);
  ([113; 112; 115; 45; 112; 108; 111; 99], 1281);
  ([113; 112; 115; 45; 112; 108; 111; 99; 97], 1534);
  ([113; 112; 115; 45; 112; 108; 111; 99; 109], 2559);
  ([113; 117; 99; 45; 76; 97; 116; 110; 45; 71; 84], 1158);
  ([113; 117; 99; 45; 76; 97; 116; 110; 45; 71; 84], 31878);
  ([113; 117; 99], 134);
  ([113; 117; 122; 45; 66; 79], 1131);
  ([113; 117; 122; 45; 69; 67], 2155);
  ([113; 117; 122; 45; 80; 69], 3179);
  ([113; 117; 122], 107);
  ([114; 109; 45; 67; 72], 1047);
  ([114; 109], 23);
  ([114; 111; 45; 77; 68], 2072);
  ([114; 111; 45; 82; 79], 1048);
  ([114; 111], 24);
  ([114; 117; 45; 77; 68], 2073);
  ([114; 117; 45; 82; 85], 1049);
  ([114; 117], 25);
  ([114; 119; 45; 82; 87], 1159);
  ([114; 119], 135);
  ([115; 97; 45; 73; 78], 1103);
  ([115; 97], 79);
  ([115; 97; 104; 45; 82; 85], 1157);
  ([115; 97; 104], 133);
  ([115; 100; 45; 65; 114; 97; 98; 45; 80; 75], 31833);
  ([115; 100; 45; 65; 114; 97; 98; 45; 80; 75], 2137);
  ([115; 100; 45; 68; 101; 118; 97; 45; 73; 78], 1113);
  ([115; 100], 89);
  ([115; 101; 45; 70; 73], 3131);
  ([115; 101; 45; 78; 79], 1083);
  ([115; 101; 45; 83; 69], 2107);
  ([115; 101], 59);
  ([115; 105; 45; 76; 75], 1115);
  ([115; 105], 91);
  ([115; 107; 45; 83; 75], 1051);
  ([115; 107], 27);
  ([115; 108; 45; 83; 73], 1060);
  ([115; 108], 36);
  ([115; 109; 97; 45; 78; 79], 6203);
  ([115; 109; 97; 45; 83; 69], 7227);
  ([115; 109; 97; 45; 83; 69], 30779);
  ([115; 109; 106; 45; 78; 79], 4155);
  ([115; 109; 106; 45; 83; 69], 5179);
  ([115; 109; 106; 45; 83; 69], 31803);
  ([115; 109; 110; 45; 70; 73], 9275);
  ([115; 109; 110; 45; 70; 73], 28731);
  ([115; 109; 115; 45; 70; 73], 8251);
  ([115; 109; 115; 45; 70; 73], 29755);
  ([115; 111; 45; 83; 79], 1143);
  ([115; 111], 119);
  ([115; 113; 45; 65; 76], 1052);
  ([115; 113], 28);
  ([115; 114; 45; 67; 121; 114; 108; 45; 66; 65], 7194);
  ([115; 114; 45; 67; 121; 114; 108; 45; 67; 83], 3098);
  ([115; 114; 45; 67; 121; 114; 108; 45; 77; 69], 12314);
  ([115; 114; 45; 67; 121; 114; 108; 45; 82; 83], 10266);
  ([115; 114; 45; 67; 121; 114; 108; 45; 82; 83], 27674);
  ([115; 114; 45; 76; 97; 116; 110; 45; 66; 65], 6170);
  ([115; 114; 45; 76; 97; 116; 110; 45; 67; 83], 2074);
  ([115; 114; 45; 76; 97; 116; 110; 45; 77; 69], 11290);
  ([115; 114; 45; 76; 97; 116; 110; 45; 82; 83], 9242);
  ([115; 114; 45; 76; 97; 116; 110; 45; 82; 83], 28698);
  ([115; 114; 45; 76; 97; 116; 110; 45; 82; 83], 31770);
  ([115; 116; 45; 90; 65], 1072);
  ([115; 116], 48);
  ([115; 118; 45; 70; 73], 2077);
  ([115; 118; 45; 83; 69], 1053);
  ([115; 118], 29);
  ([115; 119; 45; 75; 69], 1089);
  ([115; 119], 65);
  ([115; 121; 114; 45; 83; 89], 1114);
  ([115; 121; 114], 90);
  ([116; 97; 45; 73; 78], 1097);
  ([116; 97; 45; 76; 75], 2121);
  ([116; 97], 73);
  ([116; 101; 45; 73; 78], 1098);
  ([116; 101], 74);
  ([116; 103; 45; 67; 121; 114; 108; 45; 84; 74], 1064);
  ([116; 103; 45; 67; 121; 114; 108; 45; 84; 74], 31784);
  ([116; 103], 40);
  ([116; 104; 45; 84; 72], 1054);
  ([116; 104], 30);
  ([116; 105; 45; 69; 82], 2163);
  ([116; 105; 45; 69; 84], 1139);
  ([116; 105], 115);
  ([116; 107; 45; 84; 77], 1090);
  ([116; 107], 66);
  ([116; 110; 45; 66; 87], 2098);
  ([116; 110; 45; 90; 65], 1074);
  ([116; 110], 50);
  ([116; 114; 45; 84; 82], 1055);
  ([116; 114], 31);
  ([116; 115; 45; 90; 65], 1073);
  ([116; 115], 49);
  ([116; 116; 45; 82; 85], 1092);
  ([116; 116], 68);
  ([116; 122; 109; 45; 65; 114; 97; 98; 45; 77; 65], 1119);
  ([116; 122; 109; 45; 76; 97; 116; 110; 45; 68; 90], 31839);
  ([116; 122; 109; 45; 76; 97; 116; 110; 45; 68; 90], 2143);
  ([116; 122; 109; 45; 84; 102; 110; 103; 45; 77; 65], 4191);
  ([116; 122; 109; 45; 84; 102; 110; 103; 45; 77; 65], 30815);
  ([116; 122; 109], 95);
  ([117; 103; 45; 67; 78], 1152);
  ([117; 103], 128);
  ([117; 107; 45; 85; 65], 1058);
  ([117; 107], 34);
  ([117; 114; 45; 73; 78], 2080);
  ([117; 114; 45; 80; 75], 1056);
  ([117; 114], 32);
  ([117; 122; 45; 67; 121; 114; 108; 45; 85; 90], 30787);
  ([117; 122; 45; 67; 121; 114; 108; 45; 85; 90], 2115);
  ([117; 122; 45; 76; 97; 116; 110; 45; 85; 90], 1091);
  ([117; 122; 45; 76; 97; 116; 110; 45; 85; 90], 31811);
  ([117; 122], 67);
  ([118; 101; 45; 90; 65], 1075);
  ([118; 101], 51);
  ([118; 105; 45; 86; 78], 1066);
  ([118; 105], 42);
  ([119; 111; 45; 83; 78], 1160);
  ([119; 111], 136);
  ([120; 104; 45; 90; 65], 1076);
  ([120; 104], 52);
  ([121; 105; 45; 48; 48; 49], 1085);
  ([121; 105], 61);
  ([121; 111; 45; 78; 71], 1130);
  ([121; 111], 106);
  ([122; 104; 45; 67; 78], 30724);
  ([122; 104; 45; 67; 78], 2052);
  ([122; 104; 45; 72; 75], 31748);
  ([122; 104; 45; 72; 75], 3076);
  ([122; 104; 45; 77; 79], 5124);
  ([122; 104; 45; 83; 71], 4100);
  ([122; 104; 45; 84; 87], 1028);
  ([122; 104], 4);
  ([122; 117; 45; 90; 65], 1077);
  ([122; 117], 53)].
(** langid.hpp:552-986 *)
Definition lang_codes : list (Z * list Z) := [
  (1, [97; 114]);
  (1025, [97; 114; 45; 83; 65]);
  (2049, [97; 114; 45; 73; 81]);
  (3073, [97; 114; 45; 69; 71]);
  (4097, [97; 114; 45; 76; 89]);
  (5121, [97; 114; 45; 68; 90]);
  (6145, [97; 114; 45; 77; 65]);
  (7169, [97; 114; 45; 84; 78]);
  (8193, [97; 114; 45; 79; 77]);
  (9217, [97; 114; 45; 89; 69]);
  (10241, [97; 114; 45; 83; 89]);
  (11265, [97; 114; 45; 74; 79]);
  (12289, [97; 114; 45; 76; 66]);
  (13313, [97; 114; 45; 75; 87]);
  (14337, [97; 114; 45; 65; 69]);
  (15361, [97; 114; 45; 66; 72]);
  (16385, [97; 114; 45; 81; 65]);
  (2, [98; 103]);
  (1026, [98; 103; 45; 66; 71]);
  (3, [99; 97]);
  (1027, [99; 97; 45; 69; 83]);
  (2051, [99; 97; 45; 69; 83; 45; 118; 97; 108; 101; 110; 99; 105; 97]);
  (4, [122; 104]);
  (1028, [122; 104; 45; 84; 87]);
  (2052, [122; 104; 45; 67; 78]);
  (3076, [122; 104; 45; 72; 75]);
  (4100, [122; 104; 45; 83; 71]);
  (5124, [122; 104; 45; 77; 79]);
  (30724, [122; 104; 45; 67; 78]);
  (31748, [122; 104; 45; 72; 75]);
  (5, [99; 115]);
  (1029, [99; 115; 45; 67; 90]);
  (6, [100; 97]);
  (1030, [100; 97; 45; 68; 75]);
  (7, [100; 101]);
  (1031, [100; 101; 45; 68; 69]);
  (2055, [100; 101; 45; 67; 72]);
  (3079, [100; 101; 45; 65; 84]);
  (4103, [100; 101; 45; 76; 85]);
  (5127, [100; 101; 45; 76; 73]);
  (8, [101; 108]);
  (1032, [101; 108; 45; 71; 82]);
  (9, [101; 110]);
  (1033, [101; 110; 45; 85; 83]);
  (2057, [101; 110; 45; 71; 66]);
  (3081, [101; 110; 45; 65; 85]);
  (4105, [101; 110; 45; 67; 65]);
  (5129, [101; 110; 45; 78; 90]);
  (6153, [101; 110; 45; 73; 69]);
  (7177, [101; 110; 45; 90; 65]);
  (8201, [101; 110; 45; 74; 77]);
  (9225, [101; 110; 45; 48; 50; 57]);
  (10249, [101; 110; 45; 66; 90]);
  (11273, [101; 110; 45; 84; 84]);
  (12297, [101; 110; 45; 90; 87]);
  (13321, [101; 110; 45; 80; 72]);
  (14345, [101; 110; 45; 73; 68]);
  (15369, [101; 110; 45; 72; 75]);
  (16393, [101; 110; 45; 73; 78]);
  (17417, [101; 110; 45; 77; 89]);
  (18441, [101; 110; 45; 83; 71]);
  (19465, [101; 110; 45; 65; 69]);
  (10, [101; 115]);
  (1034, [101; 115; 45; 69; 83; 95; 116; 114; 97; 100; 110; 108]);
  (2058, [101; 115; 45; 77; 88]);
  (3082, [101; 115; 45; 69; 83]);
  (4106, [101; 115; 45; 71; 84]);
  (5130, [101; 115; 45; 67; 82]);
  (6154, [101; 115; 45; 80; 65]);
  (7178, [101; 115; 45; 68; 79]);
  (8202, [101; 115; 45; 86; 69]);
  (9226, [101; 115; 45; 67; 79]);
  (10250, [101; 115; 45; 80; 69]);
  (11274, [101; 115; 45; 65; 82]);
  (12298, [101; 115; 45; 69; 67]);
  (13322, [101; 115; 45; 67; 76]);
  (14346, [101; 115; 45; 85; 89]);
  (15370, [101; 115; 45; 80; 89]);
  (16394, [101; 115; 45; 66; 79]);
  (17418, [101; 115; 45; 83; 86]);
  (18442, [101; 115; 45; 72; 78]);
  (19466, [101; 115; 45; 78; 73]);
  (20490, [101; 115; 45; 80; 82]);
  (21514, [101; 115; 45; 85; 83]);
  (22538, [101; 115; 45; 52; 49; 57]);
  (23562, [101; 115; 45; 67; 85]);
  (11, [102; 105]);
  (1035, [102; 105; 45; 70; 73]);
  (12, [102; 114]);
  (1036, [102; 114; 45; 70; 82]);
  (2060, [102; 114; 45; 66; 69]);
  (3084, [102; 114; 45; 67; 65]);
  (4108, [102; 114; 45; 67; 72]);
  (5132, [102; 114; 45; 76; 85]);
  (6156, [102; 114; 45; 77; 67]);
  (7180, [102; 114; 45; 48; 50; 57]);
  (8204, [102; 114; 45; 82; 69]);
  (9228, [102; 114; 45; 67; 68]);
  (10252, [102; 114; 45; 83; 78]);
  (11276, [102; 114; 45; 67; 77]);
  (12300, [102; 114; 45; 67; 73]);
  (13324, [102; 114; 45; 77; 76]);
  (14348, [102; 114; 45; 77; 65]);
  (15372, [102; 114; 45; 72; 84]);
  (13, [104; 101]);
  (1037, [104; 101; 45; 73; 76]);
  (14, [104; 117]);
  (1038, [104; 117; 45; 72; 85]);
  (15, [105; 115]);
  (1039, [105; 115; 45; 73; 83]);
  (16, [105; 116]);
  (1040, [105; 116; 45; 73; 84]);
  (2064, [105; 116; 45; 67; 72]);
  (17, [106; 97]);
  (1041, [106; 97; 45; 74; 80]);
  (18, [107; 111]);
  (1042, [107; 111; 45; 75; 82]);
  (19, [110; 108]);
  (1043, [110; 108; 45; 78; 76]);
  (2067, [110; 108; 45; 66; 69]);
  (20, [110; 98]);
  (1044, [110; 98; 45; 78; 79]);
  (2068, [110; 110; 45; 78; 79]);
  (30740, [110; 110; 45; 78; 79]);
  (31764, [110; 98; 45; 78; 79]);
  (21, [112; 108]);
  (1045, [112; 108; 45; 80; 76]);
  (22, [112; 116]);
  (1046, [112; 116; 45; 66; 82]);
  (2070, [112; 116; 45; 80; 84]);
  (23, [114; 109]);
  (1047, [114; 109; 45; 67; 72]);
  (24, [114; 111]);
  (1048, [114; 111; 45; 82; 79]);
  (2072, [114; 111; 45; 77; 68]);
  (25, [114; 117]);
  (1049, [114; 117; 45; 82; 85]);
  (2073, [114; 117; 45; 77; 68]);
  (26, [104; 114]);
  (1050, [104; 114; 45; 72; 82]);
  (2074, [115; 114; 45; 76; 97; 116; 110; 45; 67; 83]);
  (3098, [115; 114; 45; 67; 121; 114; 108; 45; 67; 83]);
  (4122, [104; 114; 45; 66; 65]);
  (5146, [98; 115; 45; 76; 97; 116; 110; 45; 66; 65]);
  (6170, [115; 114; 45; 76; 97; 116; 110; 45; 66; 65]);
  (7194, [115; 114; 45; 67; 121; 114; 108; 45; 66; 65]);
  (8218, [98; 115; 45; 67; 121; 114; 108; 45; 66; 65]);
  (9242, [115; 114; 45; 76; 97; 116; 110; 45; 82; 83]);
  (10266, [115; 114; 45; 67; 121; 114; 108; 45; 82; 83]);
  (11290, [115; 114; 45; 76; 97; 116; 110; 45; 77; 69]);
  (12314, [115; 114; 45; 67; 121; 114; 108; 45; 77; 69]);
  (25626, [98; 115; 45; 67; 121; 114; 108; 45; 66; 65]);
  (26650, [98; 115; 45; 76; 97; 116; 110; 45; 66; 65]);
  (27674, [115; 114; 45; 67; 121; 114; 108; 45; 82; 83]);
  (28698, [115; 114; 45; 76; 97; 116; 110; 45; 82; 83]);
  (30746, [98; 115; 45; 76; 97; 116; 110; 45; 66; 65]);
  (31770, [115; 114; 45; 76; 97; 116; 110; 45; 82; 83]);
  (27, [115; 107]);
  (1051, [115; 107; 45; 83; 75]);
  (28, [115; 113]);
  (1052, [115; 113; 45; 65; 76]);
  (29, [115; 118]);
  (1053, [115; 118; 45; 83; 69]);
  (2077, [115; 118; 45; 70; 73]);
  (30, [116; 104]);
  (1054, [116; 104; 45; 84; 72]);
  (31, [116; 114]);
  (1055, [116; 114; 45; 84; 82]);
  (32, [117; 114]);
  (1056, [117; 114; 45; 80; 75]);
  (2080, [117; 114; 45; 73; 78]);
  (33, [105; 100]);
  (1057, [105; 100; 45; 73; 68]);
  (34, [117; 107]);
  (1058, [117; 107; 45; 85; 65]);
  (35, [98; 101]);
  (1059, [98; 101; 45; 66; 89]);
  (36, [115; 108]);
  (1060, [115; 108; 45; 83; 73]);
  (37, [101; 116]);
  (1061, [101; 116; 45; 69; 69]);
  (38, [108; 118]);
  (1062, [108; 118; 45; 76; 86]);
  (39, [108; 116]);
  (1063, [108; 116; 45; 76; 84]);
  (40, [116; 103]);
  (1064, [116; 103; 45; 67; 121; 114; 108; 45; 84; 74]);
  (31784, [116; 103; 45; 67; 121; 114; 108; 45; 84; 74]);
  (41, [102; 97]);
  (1065, [102; 97; 45; 73; 82]);
  (42, [118; 105]);
  (1066, [118; 105; 45; 86; 78]);
  (43, [104; 121]);
  (1067, [104; 121; 45; 65; 77]);
  (44, [97; 122]);
  (1068, [97; 122; 45; 76; 97; 116; 110; 45; 65; 90]);
  (2092, [97; 122; 45; 67; 121; 114; 108; 45; 65; 90]);
  (29740, [97; 122; 45; 67; 121; 114; 108; 45; 65; 90]);
  (30764, [97; 122; 45; 76; 97; 116; 110; 45; 65; 90]);
  (45, [101; 117]);
  (1069, [101; 117; 45; 69; 83]);
  (46, [104; 115; 98]);
  (1070, [104; 115; 98; 45; 68; 69]);
  (2094, [100; 115; 98; 45; 68; 69]);
  (31790, [100; 115; 98; 45; 68; 69]);
  (47, [109; 107]);
  (1071, [109; 107; 45; 77; 75]);
  (48, [115; 116]);
  (1072, [115; 116; 45; 90; 65]);
  (49, [116; 115]);
  (1073, [116; 115; 45; 90; 65]);
  (50, [116; 110]);
  (1074, [116; 110; 45; 90; 65]);
  (2098, [116; 110; 45; 66; 87]);
  (51, [118; 101]);
  (1075, [118; 101; 45; 90; 65]);
  (52, [120; 104]);
  (1076, [120; 104; 45; 90; 65]);
  (53, [122; 117]);
  (1077, [122; 117; 45; 90; 65]);
  (54, [97; 102]);
  (1078, [97; 102; 45; 90; 65]);
  (55, [107; 97]);
  (1079, [107; 97; 45; 71; 69]);
  (56, [102; 111]);
  (1080, [102; 111; 45; 70; 79]);
  (57, [104; 105]);
  (1081, [104; 105; 45; 73; 78]);
  (58, [109; 116]);
  (1082, [109; 116; 45; 77; 84]);
  (59, [115; 101]);
  (1083, [115; 101; 45; 78; 79]);
  (2107, [115; 101; 45; 83; 69]);
  (3131, [115; 101; 45; 70; 73]);
  (4155, [115; 109; 106; 45; 78; 79]);
  (5179, [115; 109; 106; 45; 83; 69]);
  (6203, [115; 109; 97; 45; 78; 79]);
  (7227, [115; 109; 97; 45; 83; 69]);
  (8251, [115; 109; 115; 45; 70; 73]);
  (9275, [115; 109; 110; 45; 70; 73]);
  (28731, [115; 109; 110; 45; 70; 73]);
  (29755, [115; 109; 115; 45; 70; 73]);
  (30779, [115; 109; 97; 45; 83; 69]);
  (31803, [115; 109; 106; 45; 83; 69]);
  (60, [103; 97]);
  (2108, [103; 97; 45; 73; 69]);
  (61, [121; 105]);
  (1085, [121; 105; 45; 48; 48; 49]);
  (62, [109; 115]);
  (1086, [109; 115; 45; 77; 89]);
  (2110, [109; 115; 45; 66; 78]);
  (63, [107; 107]);
  (1087, [107; 107; 45; 75; 90]);
  (64, [107; 121]);
  (1088, [107; 121; 45; 75; 71]);
  (65, [115; 119]);
  (1089, [115; 119; 45; 75; 69]);
  (66, [116; 107]);
  (1090, [116; 107; 45; 84; 77]);
  (67, [117; 122]);
  (1091, [117; 122; 45; 76; 97; 116; 110; 45; 85; 90]);
  (2115, [117; 122; 45; 67; 121; 114; 108; 45; 85; 90]);
  (30787, [117; 122; 45; 67; 121; 114; 108; 45; 85; 90]);
  (31811, [117; 122; 45; 76; 97; 116; 110; 45; 85; 90]);
  (68, [116; 116]);
  (1092, [116; 116; 45; 82; 85]);
  (69, [98; 110]);
  (1093, [98; 110; 45; 73; 78]);
  (2117, [98; 110; 45; 66; 68]);
  (70, [112; 97]);
  (1094, [112; 97; 45; 73; 78]);
  (2118, [112; 97; 45; 65; 114; 97; 98; 45; 80; 75]);
  (31814, [112; 97; 45; 65; 114; 97; 98; 45; 80; 75]);
  (71, [103; 117]);
  (1095, [103; 117; 45; 73; 78]);
  (72, [111; 114]);
  (1096, [111; 114; 45; 73; 78]);
  (73, [116; 97]);
  (1097, [116; 97; 45; 73; 78]);
  (2121, [116; 97; 45; 76; 75]);
  (74, [116; 101]);
  (1098, [116; 101; 45; 73; 78]);
  (75, [107; 110]);
  (1099, [107; 110; 45; 73; 78]);
  (76, [109; 108]);
  (1100, [109; 108; 45; 73; 78]);
  (77, [97; 115]);
  (1101, [97; 115; 45; 73; 78]);
  (78, [109; 114]);
  (1102, [109; 114; 45; 73; 78]);
  (79, [115; 97]);
  (1103, [115; 97; 45; 73; 78]);
  (80, [109; 110]);
  (1104, [109; 110; 45; 77; 78]);
  (2128, [109; 110; 45; 77; 111; 110; 103; 45; 67; 78]);
  (3152, [109; 110; 45; 77; 111; 110; 103; 45; 77; 78]);
  (30800, [109; 110; 45; 77; 78]);
  (31824, [109; 110; 45; 77; 111; 110; 103; 45; 67; 78]);
  (81, [98; 111]);
  (1105, [98; 111; 45; 67; 78]);
  (3153, [100; 122; 45; 66; 84]);
  (82, [99; 121]);
  (1106, [99; 121; 45; 71; 66]);
  (83, [107; 109]);
  (1107, [107; 109; 45; 75; 72]);
  (84, [108; 111]);
  (1108, [108; 111; 45; 76; 65]);
  (85, [109; 121]);
  (1109, [109; 121; 45; 77; 77]);
  (86, [103; 108]);
  (1110, [103; 108; 45; 69; 83]);
  (87, [107; 111; 107]);
  (1111, [107; 111; 107; 45; 73; 78]);
  (88, [109; 110; 105]);
  (1112, [109; 110; 105; 45; 73; 78]);
  (89, [115; 100]);
  (1113, [115; 100; 45; 68; 101; 118; 97; 45; 73; 78]);
  (2137, [115; 100; 45; 65; 114; 97; 98; 45; 80; 75]);
  (31833, [115; 100; 45; 65; 114; 97; 98; 45; 80; 75]);
  (90, [115; 121; 114]);
  (1114, [115; 121; 114; 45; 83; 89]);
  (91, [115; 105]);
  (1115, [115; 105; 45; 76; 75]);
  (92, [99; 104; 114]);
  (1116, [99; 104; 114; 45; 67; 104; 101; 114; 45; 85; 83]);
  (31836, [99; 104; 114; 45; 67; 104; 101; 114; 45; 85; 83]);
  (93, [105; 117]);
  (1117, [105; 117; 45; 67; 97; 110; 115; 45; 67; 65]);
  (2141, [105; 117; 45; 76; 97; 116; 110; 45; 67; 65]);
  (30813, [105; 117; 45; 67; 97; 110; 115; 45; 67; 65]);
  (31837, [105; 117; 45; 76; 97; 116; 110; 45; 67; 65]);
  (94, [97; 109]);
  (1118, [97; 109; 45; 69; 84]);
  (95, [116; 122; 109]);
  (1119, [116; 122; 109; 45; 65; 114; 97; 98; 45; 77; 65]);
  (2143, [116; 122; 109; 45; 76; 97; 116; 110; 45; 68; 90]);
  (4191, [116; 122; 109; 45; 84; 102; 110; 103; 45; 77; 65]);
  (30815, [116; 122; 109; 45; 84; 102; 110; 103; 45; 77; 65]);
  (31839, [116; 122; 109; 45; 76; 97; 116; 110; 45; 68; 90]);
  (96, [107; 115]);
  (1120, [107; 115; 45; 65; 114; 97; 98; 45; 73; 78]);
  (2144, [107; 115; 45; 68; 101; 118; 97; 45; 73; 78]);
  (97, [110; 101]);
  (1121, [110; 101; 45; 78; 80]);
  (2145, [110; 101; 45; 73; 78]);
  (98, [102; 121]);
  (1122, [102; 121; 45; 78; 76]);
  (99, [112; 115]);
  (1123, [112; 115; 45; 65; 70]);
  (100, [102; 105; 108]);
  (1124, [102; 105; 108; 45; 80; 72]);
  (101, [100; 118]);
  (1125, [100; 118; 45; 77; 86]);
  (102, [98; 105; 110]);
  (1126, [98; 105; 110; 45; 78; 71]);
  (103, [102; 102]);
  (1127, [102; 102; 45; 76; 97; 116; 110; 45; 78; 71]);
  (2151, [102; 102; 45; 76; 97; 116; 110; 45; 83; 78]);
  (31847, [102; 102; 45; 76; 97; 116; 110; 45; 83; 78]);
  (104, [104; 97]);
  (1128, [104; 97; 45; 76; 97; 116; 110; 45; 78; 71]);
  (31848, [104; 97; 45; 76; 97; 116; 110; 45; 78; 71]);
  (105, [105; 98; 98]);
  (1129, [105; 98; 98; 45; 78; 71]);
  (106, [121; 111]);
  (1130, [121; 111; 45; 78; 71]);
  (107, [113; 117; 122]);
  (1131, [113; 117; 122; 45; 66; 79]);
  (2155, [113; 117; 122; 45; 69; 67]);
  (3179, [113; 117; 122; 45; 80; 69]);
  (108, [110; 115; 111]);
  (1132, [110; 115; 111; 45; 90; 65]);
  (109, [98; 97]);
  (1133, [98; 97; 45; 82; 85]);
  (110, [108; 98]);
  (1134, [108; 98; 45; 76; 85]);
  (111, [107; 108]);
  (1135, [107; 108; 45; 71; 76]);
  (112, [105; 103]);
  (1136, [105; 103; 45; 78; 71]);
  (113, [107; 114]);
  (1137, [107; 114; 45; 76; 97; 116; 110; 45; 78; 71]);
  (114, [111; 109]);
  (1138, [111; 109; 45; 69; 84]);
  (115, [116; 105]);
  (1139, [116; 105; 45; 69; 84]);
  (2163, [116; 105; 45; 69; 82]);
  (116, [103; 110]);
  (1140, [103; 110; 45; 80; 89]);
  (117, [104; 97; 119]);
  (1141, [104; 97; 119; 45; 85; 83]);
  (118, [108; 97]);
  (1142, [108; 97; 45; 86; 65]);
  (119, [115; 111]);
  (1143, [115; 111; 45; 83; 79]);
  (120, [105; 105]);
  (1144, [105; 105; 45; 67; 78]);
  (121, [112; 97; 112]);
  (1145, [112; 97; 112; 45; 48; 50; 57]);
  (122, [97; 114; 110]);
  (1146, [97; 114; 110; 45; 67; 76]);
  (124, [109; 111; 104]);
  (1148, [109; 111; 104; 45; 67; 65]);
  (126, [98; 114]);
  (1150, [98; 114; 45; 70; 82]);
  (128, [117; 103]);
  (1152, [117; 103; 45; 67; 78]);
  (129, [109; 105]);
  (1153, [109; 105; 45; 78; 90]);
  (130, [111; 99]);
  (1154, [111; 99; 45; 70; 82]);
  (131, [99; 111]);
  (1155, [99; 111; 45; 70; 82]);
  (132, [103; 115; 119]);
  (1156, [103; 115; 119; 45; 70; 82]);
  (133, [115; 97; 104]);
  (1157, [115; 97; 104; 45; 82; 85]);
  (134, [113; 117; 99]);
  (1158, [113; 117; 99; 45; 76; 97; 116; 110; 45; 71; 84]);
  (31878, [113; 117; 99; 45; 76; 97; 116; 110; 45; 71; 84]);
  (135, [114; 119]);
  (1159, [114; 119; 45; 82; 87]);
  (136, [119; 111]);
  (1160, [119; 111; 45; 83; 78]);
  (140, [102; 97]);
  (1164, [102; 97; 45; 65; 70]);
  (145, [103; 100]);
  (1169, [103; 100; 45; 71; 66]);
  (146, [107; 117]);
  (1170, [107; 117; 45; 65; 114; 97; 98; 45; 73; 81]);
  (31890, [107; 117; 45; 65; 114; 97; 98; 45; 73; 81]);
  (1281, [113; 112; 115; 45; 112; 108; 111; 99]);
  (2305, [113; 112; 115; 45; 76; 97; 116; 110; 45; 120; 45; 115; 104]);
  (1534, [113; 112; 115; 45; 112; 108; 111; 99; 97]);
  (2559, [113; 112; 115; 45; 112; 108; 111; 99; 109])].
