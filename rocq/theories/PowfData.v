(** * The tables of the float kernel of pow

    Transcribed from internal/support/common_math_constants.hpp and
    internal/math/generic/func/power/pow_impl/powf_data.hpp.  The float table R holds values
    exact in both formats; its entries are given as doubles and converted where used. *)
From Coq Require Import ZArith List Bool.
From Verif Require Import Fmt FOps ExpoData.
Import ListNotations.
Open Scope Z_scope.

(** common_math_constants.hpp:84-95 R *)
Definition pf_R : list Z := [
    lit 0x1 0; lit 0x1fc (-9); lit 0x1f8 (-9); lit 0x1f4 (-9); lit 0x1f (-5); lit 0x1ec (-9); lit 0x1e8 (-9);
    lit 0x1e4 (-9); lit 0x1e (-5); lit 0x1de (-9); lit 0x1da (-9); lit 0x1d6 (-9); lit 0x1d4 (-9); lit 0x1d (-5);
    lit 0x1cc (-9); lit 0x1ca (-9); lit 0x1c6 (-9); lit 0x1c4 (-9); lit 0x1c (-5); lit 0x1be (-9); lit 0x1ba (-9);
    lit 0x1b8 (-9); lit 0x1b4 (-9); lit 0x1b2 (-9); lit 0x1ae (-9); lit 0x1ac (-9); lit 0x1a8 (-9); lit 0x1a6 (-9);
    lit 0x1a4 (-9); lit 0x1a (-5); lit 0x19e (-9); lit 0x19c (-9); lit 0x198 (-9); lit 0x196 (-9); lit 0x194 (-9);
    lit 0x192 (-9); lit 0x19 (-5); lit 0x18c (-9); lit 0x18a (-9); lit 0x188 (-9); lit 0x186 (-9); lit 0x184 (-9);
    lit 0x18 (-5); lit 0x17e (-9); lit 0x17c (-9); lit 0x17a (-9); lit 0x178 (-9); lit 0x176 (-9); lit 0x174 (-9);
    lit 0x172 (-9); lit 0x17 (-5); lit 0x16e (-9); lit 0x16c (-9); lit 0x16a (-9); lit 0x168 (-9); lit 0x166 (-9);
    lit 0x164 (-9); lit 0x162 (-9); lit 0x16 (-5); lit 0x15e (-9); lit 0x15c (-9); lit 0x15a (-9); lit 0x158 (-9);
    lit 0x156 (-9); lit 0x154 (-9); lit 0x154 (-9); lit 0x152 (-9); lit 0x15 (-5); lit 0x14e (-9); lit 0x14c (-9);
    lit 0x14a (-9); lit 0x14a (-9); lit 0x148 (-9); lit 0x146 (-9); lit 0x144 (-9); lit 0x142 (-9); lit 0x14 (-5);
    lit 0x14 (-5); lit 0x13e (-9); lit 0x13c (-9); lit 0x13a (-9); lit 0x13a (-9); lit 0x138 (-9); lit 0x136 (-9);
    lit 0x134 (-9); lit 0x134 (-9); lit 0x132 (-9); lit 0x13 (-5); lit 0x13 (-5); lit 0x12e (-9); lit 0x12c (-9);
    lit 0x12c (-9); lit 0x12a (-9); lit 0x128 (-9); lit 0x128 (-9); lit 0x126 (-9); lit 0x124 (-9); lit 0x124 (-9);
    lit 0x122 (-9); lit 0x12 (-5); lit 0x12 (-5); lit 0x11e (-9); lit 0x11c (-9); lit 0x11c (-9); lit 0x11a (-9);
    lit 0x11a (-9); lit 0x118 (-9); lit 0x116 (-9); lit 0x116 (-9); lit 0x114 (-9); lit 0x114 (-9); lit 0x112 (-9);
    lit 0x11 (-5); lit 0x11 (-5); lit 0x10e (-9); lit 0x10e (-9); lit 0x10c (-9); lit 0x10c (-9); lit 0x10a (-9);
    lit 0x10a (-9); lit 0x108 (-9); lit 0x108 (-9); lit 0x106 (-9); lit 0x106 (-9); lit 0x104 (-9); lit 0x104 (-9);
    lit 0x102 (-9); lit 0x1 (-1)].

(** common_math_constants.hpp:97-108 RD *)
Definition pf_RD : list Z := [
    lit 0x1 0; lit 0x1fc (-9); lit 0x1f8 (-9); lit 0x1f4 (-9); lit 0x1f (-5); lit 0x1ec (-9); lit 0x1e8 (-9);
    lit 0x1e4 (-9); lit 0x1e (-5); lit 0x1de (-9); lit 0x1da (-9); lit 0x1d6 (-9); lit 0x1d4 (-9); lit 0x1d (-5);
    lit 0x1cc (-9); lit 0x1ca (-9); lit 0x1c6 (-9); lit 0x1c4 (-9); lit 0x1c (-5); lit 0x1be (-9); lit 0x1ba (-9);
    lit 0x1b8 (-9); lit 0x1b4 (-9); lit 0x1b2 (-9); lit 0x1ae (-9); lit 0x1ac (-9); lit 0x1a8 (-9); lit 0x1a6 (-9);
    lit 0x1a4 (-9); lit 0x1a (-5); lit 0x19e (-9); lit 0x19c (-9); lit 0x198 (-9); lit 0x196 (-9); lit 0x194 (-9);
    lit 0x192 (-9); lit 0x19 (-5); lit 0x18c (-9); lit 0x18a (-9); lit 0x188 (-9); lit 0x186 (-9); lit 0x184 (-9);
    lit 0x18 (-5); lit 0x17e (-9); lit 0x17c (-9); lit 0x17a (-9); lit 0x178 (-9); lit 0x176 (-9); lit 0x174 (-9);
    lit 0x172 (-9); lit 0x17 (-5); lit 0x16e (-9); lit 0x16c (-9); lit 0x16a (-9); lit 0x168 (-9); lit 0x166 (-9);
    lit 0x164 (-9); lit 0x162 (-9); lit 0x16 (-5); lit 0x15e (-9); lit 0x15c (-9); lit 0x15a (-9); lit 0x158 (-9);
    lit 0x156 (-9); lit 0x154 (-9); lit 0x154 (-9); lit 0x152 (-9); lit 0x15 (-5); lit 0x14e (-9); lit 0x14c (-9);
    lit 0x14a (-9); lit 0x14a (-9); lit 0x148 (-9); lit 0x146 (-9); lit 0x144 (-9); lit 0x142 (-9); lit 0x14 (-5);
    lit 0x14 (-5); lit 0x13e (-9); lit 0x13c (-9); lit 0x13a (-9); lit 0x13a (-9); lit 0x138 (-9); lit 0x136 (-9);
    lit 0x134 (-9); lit 0x134 (-9); lit 0x132 (-9); lit 0x13 (-5); lit 0x13 (-5); lit 0x12e (-9); lit 0x12c (-9);
    lit 0x12c (-9); lit 0x12a (-9); lit 0x128 (-9); lit 0x128 (-9); lit 0x126 (-9); lit 0x124 (-9); lit 0x124 (-9);
    lit 0x122 (-9); lit 0x12 (-5); lit 0x12 (-5); lit 0x11e (-9); lit 0x11c (-9); lit 0x11c (-9); lit 0x11a (-9);
    lit 0x11a (-9); lit 0x118 (-9); lit 0x116 (-9); lit 0x116 (-9); lit 0x114 (-9); lit 0x114 (-9); lit 0x112 (-9);
    lit 0x11 (-5); lit 0x11 (-5); lit 0x10e (-9); lit 0x10e (-9); lit 0x10c (-9); lit 0x10c (-9); lit 0x10a (-9);
    lit 0x10a (-9); lit 0x108 (-9); lit 0x108 (-9); lit 0x106 (-9); lit 0x106 (-9); lit 0x104 (-9); lit 0x104 (-9);
    lit 0x102 (-9); lit 0x1 (-1)].

(** common_math_constants.hpp:153-176 LOG2_R *)
Definition pf_LOG2_R : list Z := [
    lit 0 0; lit 0x172c7ba20f7327 (-59); lit 0x1743ee861f3556 (-58); lit 0x1184b8e4c56af8 (-57);
    lit 0x177394c9d958d5 (-57); lit 0x1d6ebd1f1febfe (-57); lit 0x11bb32a600549d (-56); lit 0x14c560fe68af88 (-56);
    lit 0x17d60496cfbb4c (-56); lit 0x1960caf9abb7ca (-56); lit 0x1c7b528b70f1c5 (-56); lit 0x1f9c95dc1d1165 (-56);
    lit 0x1097e38ce60649 (-55); lit 0x122dadc2ab3497 (-55); lit 0x13c6fb650cde51 (-55); lit 0x1494f863b8df35 (-55);
    lit 0x1633a8bf437ce1 (-55); lit 0x17046031c79f85 (-55); lit 0x18a8980abfbd32 (-55); lit 0x197c1cb13c7ec1 (-55);
    lit 0x1b2602497d5346 (-55); lit 0x1bfc67a7fff4cc (-55); lit 0x1dac22d3e441d3 (-55); lit 0x1e857d3d361368 (-55);
    lit 0x101d9bbcfa61d4 (-54); lit 0x108bce0d95fa38 (-54); lit 0x1169c05363f158 (-54); lit 0x11d982c9d52708 (-54);
    lit 0x1249cd2b13cd6c (-54); lit 0x132bfee370ee68 (-54); lit 0x139de8e1559f6f (-54); lit 0x14106017c3eca3 (-54);
    lit 0x14f6fbb2cec598 (-54); lit 0x156b22e6b578e5 (-54); lit 0x15dfdcf1eeae0e (-54); lit 0x16552b49986277 (-54);
    lit 0x16cb0f6865c8ea (-54); lit 0x17b89f02cf2aad (-54); lit 0x18304d90c11fd3 (-54); lit 0x18a8980abfbd32 (-54);
    lit 0x1921800924dd3b (-54); lit 0x199b072a96c6b2 (-54); lit 0x1a8ff971810a5e (-54); lit 0x1b0b67f4f4681 (-50);
    lit 0x1b877c57b1b07 (-50); lit 0x1c043859e2fdb3 (-54); lit 0x1c819dc2d45fe4 (-54); lit 0x1cffae611ad12b (-54);
    lit 0x1d7e6c0abc3579 (-54); lit 0x1dfdd89d586e2b (-54); lit 0x1e7df5fe538ab3 (-54); lit 0x1efec61b011f85 (-54);
    lit 0x1f804ae8d0cd02 (-54); lit 0x10014332be0033 (-53); lit 0x1042bd4b9a7c99 (-53); lit 0x108494c66b8ef (-49);
    lit 0x10c6caaf0c5597 (-53); lit 0x11096015dee4da (-53); lit 0x114c560fe68af9 (-53); lit 0x118fadb6e2d3c2 (-53);
    lit 0x11d368296b5255 (-53); lit 0x1217868b0c37e8 (-53); lit 0x125c0a0463beb (-49); lit 0x12a0f3c340705c (-53);
    lit 0x12e644fac04fd8 (-53); lit 0x12e644fac04fd8 (-53); lit 0x132bfee370ee68 (-53); lit 0x137222bb70747c (-53);
    lit 0x13b8b1c68fa6ed (-53); lit 0x13ffad4e74f1d6 (-53); lit 0x144716a2c08262 (-53); lit 0x144716a2c08262 (-53);
    lit 0x148eef19317991 (-53); lit 0x14d7380dcc422d (-53); lit 0x151ff2e30214bc (-53); lit 0x15692101d9b4a6 (-53);
    lit 0x15b2c3da19723b (-53); lit 0x15b2c3da19723b (-53); lit 0x15fcdce2727ddb (-53); lit 0x16476d98ad990a (-53);
    lit 0x16927781d932a8 (-53); lit 0x16927781d932a8 (-53); lit 0x16ddfc2a78fc63 (-53); lit 0x1729fd26b707c8 (-53);
    lit 0x17767c12967a45 (-53); lit 0x17767c12967a45 (-53); lit 0x17c37a9227e7fb (-53); lit 0x1810fa51bf65fd (-53);
    lit 0x1810fa51bf65fd (-53); lit 0x185efd062c656d (-53); lit 0x18ad846cf369a4 (-53); lit 0x18ad846cf369a4 (-53);
    lit 0x18fc924c89ac84 (-53); lit 0x194c287492c4db (-53); lit 0x194c287492c4db (-53); lit 0x199c48be2063c8 (-53);
    lit 0x19ecf50bf43f13 (-53); lit 0x19ecf50bf43f13 (-53); lit 0x1a3e2f4ac43f6 (-49); lit 0x1a8ff971810a5e (-53);
    lit 0x1a8ff971810a5e (-53); lit 0x1ae255819f022d (-53); lit 0x1b35458761d479 (-53); lit 0x1b35458761d479 (-53);
    lit 0x1b88cb9a2ab521 (-53); lit 0x1b88cb9a2ab521 (-53); lit 0x1bdce9dcc96187 (-53); lit 0x1c31a27dd00b4a (-53);
    lit 0x1c31a27dd00b4a (-53); lit 0x1c86f7b7ea4a89 (-53); lit 0x1c86f7b7ea4a89 (-53); lit 0x1cdcebd2373995 (-53);
    lit 0x1d338120a6dd9d (-53); lit 0x1d338120a6dd9d (-53); lit 0x1d8aba045b01c8 (-53); lit 0x1d8aba045b01c8 (-53);
    lit 0x1de298ec0bac0d (-53); lit 0x1de298ec0bac0d (-53); lit 0x1e3b20546f554a (-53); lit 0x1e3b20546f554a (-53);
    lit 0x1e9452c8a71028 (-53); lit 0x1e9452c8a71028 (-53); lit 0x1eee32e2aeccbf (-53); lit 0x1eee32e2aeccbf (-53);
    lit 0x1f48c34bd1e96f (-53); lit 0x1f48c34bd1e96f (-53); lit 0x1fa406bd2443df (-53); lit 0x1 0].

(** common_math_constants.hpp:341-360 R2 *)
Definition pf_R2 : list Z := [
    lit 0x10101 (-16); lit 0x100fd (-16); lit 0x100f9 (-16); lit 0x100f5 (-16); lit 0x100f1 (-16);
    lit 0x100ed (-16); lit 0x100e9 (-16); lit 0x100e5 (-16); lit 0x100e1 (-16); lit 0x100dd (-16);
    lit 0x100d9 (-16); lit 0x100d5 (-16); lit 0x100d1 (-16); lit 0x100cd (-16); lit 0x100c9 (-16);
    lit 0x100c5 (-16); lit 0x100c1 (-16); lit 0x100bd (-16); lit 0x100b9 (-16); lit 0x100b4 (-16);
    lit 0x100b (-12); lit 0x100ac (-16); lit 0x100a8 (-16); lit 0x100a4 (-16); lit 0x100a (-12); lit 0x1009c (-16);
    lit 0x10098 (-16); lit 0x10094 (-16); lit 0x1009 (-12); lit 0x1008c (-16); lit 0x10088 (-16);
    lit 0x10084 (-16); lit 0x1008 (-12); lit 0x1007c (-16); lit 0x10078 (-16); lit 0x10074 (-16); lit 0x1007 (-12);
    lit 0x1006c (-16); lit 0x10068 (-16); lit 0x10064 (-16); lit 0x1006 (-12); lit 0x1005c (-16);
    lit 0x10058 (-16); lit 0x10054 (-16); lit 0x1005 (-12); lit 0x1004c (-16); lit 0x10048 (-16);
    lit 0x10044 (-16); lit 0x1004 (-12); lit 0x1003c (-16); lit 0x10038 (-16); lit 0x10034 (-16); lit 0x1003 (-12);
    lit 0x1002c (-16); lit 0x10028 (-16); lit 0x10024 (-16); lit 0x1002 (-12); lit 0x1001c (-16);
    lit 0x10018 (-16); lit 0x10014 (-16); lit 0x1001 (-12); lit 0x1000c (-16); lit 0x10008 (-16);
    lit 0x10004 (-16); lit 0x1 0; lit 0x1fff8 (-17); lit 0x1fff (-13); lit 0x1ffe8 (-17); lit 0x1ffe (-13);
    lit 0x1ffd8 (-17); lit 0x1ffd (-13); lit 0x1ffc8 (-17); lit 0x1ffc (-13); lit 0x1ffb8 (-17); lit 0x1ffb (-13);
    lit 0x1ffa8 (-17); lit 0x1ffa (-13); lit 0x1ff98 (-17); lit 0x1ff9 (-13); lit 0x1ff88 (-17); lit 0x1ff8 (-13);
    lit 0x1ff78 (-17); lit 0x1ff7 (-13); lit 0x1ff68 (-17); lit 0x1ff6 (-13); lit 0x1ff58 (-17); lit 0x1ff5 (-13);
    lit 0x1ff48 (-17); lit 0x1ff4 (-13); lit 0x1ff38 (-17); lit 0x1ff3 (-13); lit 0x1ff28 (-17); lit 0x1ff2 (-13);
    lit 0x1ff18 (-17); lit 0x1ff1 (-13); lit 0x1ff08 (-17); lit 0x1ff (-9); lit 0x1fef8 (-17); lit 0x1fef (-13);
    lit 0x1fee8 (-17); lit 0x1fee (-13); lit 0x1fed8 (-17); lit 0x1fed (-13); lit 0x1fec8 (-17); lit 0x1fec (-13);
    lit 0x1feb8 (-17); lit 0x1feb (-13); lit 0x1fea8 (-17); lit 0x1fea (-13); lit 0x1fe98 (-17); lit 0x1fe92 (-17);
    lit 0x1fe8a (-17); lit 0x1fe82 (-17); lit 0x1fe7a (-17); lit 0x1fe72 (-17); lit 0x1fe6a (-17);
    lit 0x1fe62 (-17); lit 0x1fe5a (-17); lit 0x1fe52 (-17); lit 0x1fe4a (-17); lit 0x1fe42 (-17);
    lit 0x1fe3a (-17); lit 0x1fe32 (-17); lit 0x1fe2a (-17); lit 0x1fe22 (-17); lit 0x1fe1a (-17);
    lit 0x1fe12 (-17); lit 0x1fe0a (-17); lit 0x1fe02 (-17); lit 0x1fdfa (-17); lit 0x1fdf2 (-17);
    lit 0x1fdea (-17); lit 0x1fde2 (-17); lit 0x1fdda (-17); lit 0x1fdd2 (-17); lit 0x1fdca (-17);
    lit 0x1fdc2 (-17); lit 0x1fdba (-17); lit 0x1fdb2 (-17); lit 0x1fdaa (-17); lit 0x1fda2 (-17);
    lit 0x1fd9a (-17); lit 0x1fd92 (-17); lit 0x1fd8c (-17); lit 0x1fd84 (-17); lit 0x1fd7c (-17);
    lit 0x1fd74 (-17); lit 0x1fd6c (-17); lit 0x1fd64 (-17); lit 0x1fd5c (-17); lit 0x1fd54 (-17);
    lit 0x1fd4c (-17); lit 0x1fd44 (-17); lit 0x1fd3c (-17); lit 0x1fd34 (-17); lit 0x1fd2c (-17);
    lit 0x1fd24 (-17); lit 0x1fd1c (-17); lit 0x1fd14 (-17); lit 0x1fd0c (-17); lit 0x1fd04 (-17);
    lit 0x1fcfc (-17); lit 0x1fcf4 (-17); lit 0x1fcec (-17); lit 0x1fce4 (-17); lit 0x1fcdc (-17);
    lit 0x1fcd6 (-17); lit 0x1fcce (-17); lit 0x1fcc6 (-17); lit 0x1fcbe (-17); lit 0x1fcb6 (-17);
    lit 0x1fcae (-17); lit 0x1fca6 (-17); lit 0x1fc9e (-17); lit 0x1fc96 (-17); lit 0x1fc8e (-17);
    lit 0x1fc86 (-17); lit 0x1fc7e (-17); lit 0x1fc76 (-17); lit 0x1fc6e (-17); lit 0x1fc66 (-17);
    lit 0x1fc5e (-17); lit 0x1fc56 (-17); lit 0x1fc4e (-17); lit 0x1fc46 (-17); lit 0x1fc4 (-13);
    lit 0x1fc38 (-17); lit 0x1fc3 (-13); lit 0x1fc28 (-17); lit 0x1fc2 (-13); lit 0x1fc18 (-17); lit 0x1fc1 (-13);
    lit 0x1fc08 (-17)].

(** common_math_constants.hpp:479-544 EXP2_MID1, the members in the order written *)
Definition pf_EXP2_MID1 : list (Z * Z * Z) := [
    (lit 0 0, lit 0 0, lit 0x1 0);
    (lit (-0x19085b0a3d74d5) (-162), lit (-0x119083535b085d) (-108), lit 0x102c9a3e778061 (-52));
    (lit 0x105ff94f8d257e (-162), lit 0x1d73e2a475b465 (-107), lit 0x1059b0d3158574 (-52));
    (lit 0x115820d96b414f (-163), lit 0x1186be4bb284ff (-109), lit 0x10874518759bc8 (-52));
    (lit (-0x167c9bd6ebf74c) (-160), lit 0x18a62e4adc610b (-106), lit 0x10b5586cf9890f (-52));
    (lit (-0x15aa76994e9ddb) (-165), lit 0x103a1727c57b53 (-111), lit 0x10e3ec32d3d1a2 (-52));
    (lit 0x19d58b988f562d (-161), lit (-0x16c51039449b3a) (-106), lit 0x111301d0125b51 (-52));
    (lit (-0x12fe7bb4c76416) (-160), lit (-0x132fbf9af1369e) (-106), lit 0x11429aaea92de (-48));
    (lit 0x14f2406aa13ff (-157), lit (-0x119041b9d78a76) (-107), lit 0x1172b83c7d517b (-52));
    (lit 0x1ad36183926ae8 (-163), lit 0x1e5b4c7b4968e4 (-107), lit 0x11a35beb6fcb75 (-52));
    (lit 0x1ea62d0881b918 (-162), lit 0x1e016e00a2643c (-106), lit 0x11d4873168b9aa (-52));
    (lit (-0x1781dbc16f1ea4) (-163), lit 0x1dc775814a8495 (-107), lit 0x12063b88628cd6 (-52));
    (lit (-0x14d89f9af532e) (-157), lit 0x19b07eb6c70573 (-106), lit 0x12387a6e756238 (-52));
    (lit 0x1277393a461b77 (-162), lit 0x12bd339940e9d9 (-107), lit 0x126b4565e27cdd (-52));
    (lit 0x1de5448560469 (-159), lit 0x1612e8afad1255 (-107), lit 0x129e9df51fdee1 (-52));
    (lit (-0x1ee9d8f8cb9307) (-162), lit 0x10024754db41d5 (-106), lit 0x12d285a6e4030b (-52));
    (lit 0x17b7b2f09cd0d9 (-162), lit 0x16f46ad23182e4 (-107), lit 0x1306fe0a31b715 (-52));
    (lit (-0x1406a2ea6cfc6b) (-160), lit 0x132721843659a6 (-106), lit 0x133c08b26416ff (-52));
    (lit 0x187e3e12516bfa (-160), lit (-0x163aeabf42eae2) (-106), lit 0x1371a7373aa9cb (-52));
    (lit 0x19b0b1ff17c296 (-163), lit (-0x15e436d661f5e3) (-108), lit 0x13a7db34e59ff7 (-52));
    (lit (-0x1808ba68fa8fb7) (-161), lit 0x1ada0911f09ebc (-107), lit 0x13dea64c123422 (-52));
    (lit (-0x132b43eafc6518) (-166), lit (-0x1ef3691c309278) (-110), lit 0x14160a21f72e2a (-52));
    (lit (-0x10ac312de3d922) (-166), lit 0x189b7a04ef80d (-107), lit 0x144e086061892d (-52));
    (lit 0x1e1eebae743ac (-159), lit 0x13c1a3b69062f (-104), lit 0x1486a2b5c13cd (-48));
    (lit 0x1c06c7745c2b39 (-165), lit 0x1d4397afec42e2 (-108), lit 0x14bfdad5362a27 (-52));
    (lit (-0x11aa1fd7b685cd) (-164), lit (-0x14b309d25957e3) (-106), lit 0x14f9b2769d2ca7 (-52));
    (lit 0x1fa733951f214c (-163), lit (-0x107abe1db13cad) (-107), lit 0x15342b569d4f82 (-52));
    (lit (-0x1ff86852a613ff) (-163), lit 0x19bb2c011d93ad (-106), lit 0x156f4736b527da (-52));
    (lit (-0x1744ee506fdafe) (-161), lit 0x16324c054647ad (-106), lit 0x15ab07dd485429 (-52));
    (lit (-0x195f9ab75fa7d6) (-160), lit 0x1ba6f93080e65e (-106), lit 0x15e76f15ad2148 (-52));
    (lit 0x15d8e757cfb991 (-163), lit (-0x1383c17e40b497) (-106), lit 0x16247eb03a5585 (-52));
    (lit 0x14a337f4dc0a3b (-160), lit (-0x1bb60987591c34) (-106), lit 0x16623882552225 (-52));
    (lit 0x157d3e3adec175 (-160), lit (-0x1bdd3413b26456) (-106), lit 0x16a09e667f3bcd (-52));
    (lit 0x1a59f88abbe778 (-167), lit (-0x1bbe3a683c88ab) (-109), lit 0x16dfb23c651a2f (-52));
    (lit (-0x1269796953a4c3) (-161), lit (-0x116e4786887a99) (-107), lit 0x171f75e8ec5f74 (-52));
    (lit (-0x18f8e7fa19e5e8) (-160), lit (-0x10245957316dd3) (-106), lit 0x175feb564267c9 (-52));
    (lit (-0x14217a932d10d4) (-165), lit (-0x141577ee04992f) (-107), lit 0x17a11473eb0187 (-52));
    (lit 0x170a1427f8fcdf (-164), lit 0x105d02ba15797e (-108), lit 0x17e2f336cf4e62 (-52));
    (lit 0x10f6ad65cbbac1 (-164), lit (-0x1d4c1dd41532d8) (-106), lit 0x182589994cce13 (-52));
    (lit (-0x1f16f65181d921) (-161), lit (-0x1fc6f89bd4f6ba) (-106), lit 0x1868d99b4492ed (-52));
    (lit (-0x130644a7836333) (-162), lit 0x16e9f156864b27 (-106), lit 0x18ace5422aa0db (-52));
    (lit 0x13bf26d2b85163 (-166), lit 0x15cc13a2e3976c (-107), lit 0x18f1ae99157736 (-52));
    (lit 0x1697e257ac0db2 (-163), lit (-0x175fc781b57ebc) (-109), lit 0x193737b0cdc5e5 (-52));
    (lit 0x17edb9d7144b6f (-160), lit (-0x1d185b7c1b85d1) (-106), lit 0x197d829fde4e5 (-48));
    (lit 0x16376b7943085c (-162), lit 0x1c7c46b071f2be (-108), lit 0x19c49182a3f09 (-48));
    (lit 0x1354084551b4fb (-161), lit (-0x1359495d1cd533) (-106), lit 0x1a0c667b5de565 (-52));
    (lit (-0x1bfd7adfd63f48) (-163), lit (-0x1d2f6edb8d41e1) (-106), lit 0x1a5503b23e255d (-52));
    (lit 0x18b16ae39e8cb9 (-161), lit 0x10fac90ef7fd31 (-106), lit 0x1a9e6b5579fdbf (-52));
    (lit 0x1a7fbc3ae675ea (-160), lit 0x17a1cd345dcc81 (-106), lit 0x1ae89f995ad3ad (-52));
    (lit 0x12babc0edda4d9 (-163), lit (-0x12805e3084d708) (-109), lit 0x1b33a2b84f15fb (-52));
    (lit 0x1aa64481e1ab72 (-163), lit (-0x15584f7e54ac3b) (-108), lit 0x1b7f76f2fb5e47 (-52));
    (lit 0x19a164050e1258 (-161), lit 0x123dd07a2d9e84 (-107), lit 0x1bcc1e904bc1d2 (-52));
    (lit 0x199e51125928da (-162), lit 0x111065895048dd (-107), lit 0x1c199bdd85529c (-52));
    (lit (-0x1fc44c329d5cb2) (-161), lit 0x12884dff483cad (-106), lit 0x1c67f12e57d14b (-52));
    (lit 0x1d8765566b032e (-162), lit 0x1503cbd1e949db (-108), lit 0x1cb720dcef9069 (-52));
    (lit (-0x1e7044039da0f6) (-160), lit (-0x1cbc3743797a9c) (-106), lit 0x1d072d4a07897c (-52));
    (lit (-0x1ab053b05531fc) (-163), lit 0x12ed02d75b3707 (-107), lit 0x1d5818dcfba487 (-52));
    (lit 0x17f6246f0ec615 (-160), lit 0x1c2300696db532 (-106), lit 0x1da9e603db3285 (-52));
    (lit 0x1b7225a944efd6 (-160), lit (-0x11a5cd4f184b5c) (-106), lit 0x1dfc97337b9b5f (-52));
    (lit 0x11e92cb3c2d278 (-161), lit 0x139e8980a9cc8f (-107), lit 0x1e502ee78b3ff6 (-52));
    (lit (-0x1fc0f242bbf3de) (-161), lit (-0x1e9c23179c2893) (-106), lit 0x1ea4afa2a490da (-52));
    (lit 0x1f6dd5d229ff69 (-160), lit 0x1dc7f486a4b6b (-102), lit 0x1efa1bee615a27 (-52));
    (lit (-0x14019bffc80ef3) (-162), lit 0x19d3e12dd8a18b (-106), lit 0x1f50765b6e454 (-48));
    (lit 0x1dc060c36f7651 (-164), lit 0x174853f3a5931e (-107), lit 0x1fa7c1819e90d8 (-52))].

(** powf_data.hpp:38-167 LOG2_R_TD, the members in the order written *)
Definition pf_LOG2_R_TD : list (Z * Z * Z) := [
    (lit 0 0, lit 0 0, lit 0 0); (lit 0x184a2c615b70ad (-131), lit (-0x1177c23362928c) (-77), lit 0x172c8 (-23));
    (lit (-0x1f27b820fd03ea) (-128), lit (-0x1179e0caa9c9ab) (-74), lit 0x1744 (-18));
    (lit (-0x1f27ef487c8f34) (-129), lit (-0x1c6cea541f5b7) (-71), lit 0x1184c (-21));
    (lit (-0x1e3f80fbc71454) (-128), lit (-0x166c4d4e554434) (-74), lit 0x1773a (-21));
    (lit (-0x19f8ef14d5f6ee) (-131), lit (-0x170700a00fdd55) (-76), lit 0x1d6ec (-21));
    (lit 0x1452bbce7398c1 (-129), lit 0x153002a4e86631 (-75), lit 0x11bb3 (-20));
    (lit (-0x1990555535afd) (-129), lit 0x1fcd15f101c142 (-77), lit 0x14c56 (-20));
    (lit 0x1447e30ad393ee (-130), lit 0x125b3eed319ced (-74), lit 0x17d6 (-16));
    (lit 0x1b7759da88a2da (-128), lit (-0x14195120d8486f) (-74), lit 0x1960d (-20));
    (lit 0x1cee7766ece702 (-130), lit 0x145b878e27d0d9 (-75), lit 0x1c7b5 (-20));
    (lit (-0x1a55c745ecdc2f) (-129), lit 0x1770744593a4cb (-74), lit 0x1f9c9 (-20));
    (lit 0x1f7ec992caa67f (-129), lit 0x1c673032495d24 (-74), lit 0x1097e (-19));
    (lit (-0x1433638c6ece3e) (-129), lit (-0x11eaa65b49696e) (-74), lit 0x122db (-19));
    (lit 0x158f27b6518824 (-128), lit 0x1b2866f2850b22 (-74), lit 0x13c6f8 (-23));
    (lit (-0x186bdcfdfd4a4c) (-131), lit 0x18ee37cd2ea9d3 (-77), lit 0x1494f8 (-23));
    (lit (-0x1ff7044a68a7fa) (-132), lit 0x17e86f9c2154fb (-76), lit 0x1633a8 (-23));
    (lit (-0x1aa21694561327) (-133), lit 0x18e3cfc25f0ce6 (-78), lit 0x17046 (-19));
    (lit (-0x1d209f2d4239c6) (-139), lit 0x157f7a64ccd537 (-80), lit 0x18a898 (-23));
    (lit (-0x1a55e97e60e632) (-128), lit (-0x1a761c09fbd2ae) (-74), lit 0x197c2 (-19));
    (lit 0x1261179225541e (-128), lit 0x124bea9a2c66f3 (-74), lit 0x1b26 (-15));
    (lit (-0x108fa30510fca9) (-134), lit (-0x160002ccfe43f5) (-77), lit 0x1bfc68 (-23));
    (lit (-0x163ec8d56242f9) (-128), lit 0x169f220e97f22c (-74), lit 0x1dac2 (-19));
    (lit 0x18bcdaf0534365 (-128), lit (-0x16164f64c210e) (-70), lit 0x1e858 (-19));
    (lit 0x11003282896056 (-130), lit (-0x10c1678ae89767) (-76), lit 0x101d9c (-22));
    (lit 0x101bcc7025fa92 (-130), lit (-0x1f26a05c813d57) (-74), lit 0x108bd (-18));
    (lit (-0x1fe8a8648e9ebc) (-132), lit 0x14d8fc561c8d44 (-76), lit 0x1169c (-18));
    (lit 0x108dfb23650c75 (-131), lit (-0x1362ad8f7ca2d) (-70), lit 0x11d984 (-22));
    (lit (-0x1f8d5a89861a5e) (-131), lit 0x12b13cd6c4d042 (-74), lit 0x1249cc (-22));
    (lit (-0x1a1c872983511e) (-128), lit (-0x11c8f11979a5db) (-74), lit 0x132c (-14));
    (lit 0x1e8e21bff3336b (-129), lit 0x1c2ab3edefe569 (-75), lit 0x139de8 (-22));
    (lit 0x1fd1994fb2c4a1 (-132), lit 0x17c3eca28e69ca (-78), lit 0x14106 (-18));
    (lit 0x16b94b51cf76b1 (-132), lit (-0x134c4e99e1c6c6) (-76), lit 0x14f6fc (-22));
    (lit (-0x131d55da1d0f66) (-128), lit (-0x1194a871b63619) (-74), lit 0x156b24 (-22));
    (lit (-0x1378b22691e28b) (-129), lit 0x1e3dd5c1c885ae (-75), lit 0x15dfdc (-22));
    (lit 0x199e302970e411 (-135), lit (-0x16ccf3b1129b7c) (-75), lit 0x16552c (-22));
    (lit 0x120164a049664d (-134), lit (-0x12f346e2bf924b) (-75), lit 0x16cb1 (-18));
    (lit (-0x1d14aac4d864c3) (-129), lit (-0x1fa61aaa59c1d8) (-75), lit 0x17b8a (-18));
    (lit 0x1496ab4e4b293f (-131), lit 0x190c11fd32a3ab (-74), lit 0x18304c (-22));
    (lit (-0x1d209f2d4239c6) (-138), lit 0x157f7a64ccd537 (-79), lit 0x18a898 (-22));
    (lit 0x1eae3326327bab (-133), lit 0x1249ba76fee235 (-79), lit 0x19218 (-18));
    (lit 0x1fa05bddfded8c (-129), lit (-0x1aad2729b21ae5) (-75), lit 0x199b08 (-22));
    (lit (-0x1624140d175ba2) (-129), lit 0x171810a5e1818 (-70), lit 0x1a8ff8 (-22));
    (lit 0x1f1c5160c515c1 (-133), lit (-0x16172fe015e13c) (-79), lit 0x1b0b68 (-22));
    (lit (-0x186a6204eec8c) (-127), lit 0x15ec6c1bfbf89a (-76), lit 0x1b877c (-22));
    (lit 0x1718f761dd3915 (-130), lit 0x1678bf6cdedf51 (-76), lit 0x1c0438 (-22));
    (lit (-0x1d4ee66c3700e4) (-128), lit 0x1c2d45fe43895e (-74), lit 0x1c819c (-22));
    (lit (-0x17d14533586306) (-129), lit (-0x19ee52ed49d71d) (-74), lit 0x1cffb (-18));
    (lit 0x15ce9fb5a7bb5b (-133), lit 0x15786af187a96b (-79), lit 0x1d7e6c (-22));
    (lit (-0x1ae6face57ad3b) (-129), lit 0x13ab0dc56138c9 (-75), lit 0x1dfdd8 (-22));
    (lit 0x15ac93b443d55f (-130), lit 0x1fe538ab34efb5 (-74), lit 0x1e7df4 (-22));
    (lit 0x1f1753e0ae1e8f (-128), lit (-0x1e4fee07aa4b68) (-74), lit 0x1efec8 (-22));
    (lit 0x1cdfd4c297069b (-128), lit (-0x1172f32fe67287) (-74), lit 0x1f804c (-22));
    (lit 0x197a0e8f3ba742 (-131), lit (-0x19a83ff9ab9cc8) (-74), lit 0x100144 (-21));
    (lit (-0x1800450f5b2357) (-130), lit (-0x168cb06cece193) (-74), lit 0x1042be (-21));
    (lit (-0x1a839041241fe7) (-130), lit 0x18cd71ddf82e2 (-70), lit 0x108494 (-21));
    (lit 0x1ed0b8eeccca86 (-130), lit 0x15e18ab2df3ae6 (-74), lit 0x10c6ca (-21));
    (lit 0x13dd41df9689b3 (-131), lit 0x15dee4d9d8a273 (-77), lit 0x11096 (-17));
    (lit (-0x1990555535afd) (-130), lit 0x1fcd15f101c142 (-78), lit 0x114c56 (-21));
    (lit (-0x11773d02c9055c) (-129), lit (-0x12474b0f992ba1) (-75), lit 0x118fae (-21));
    (lit (-0x14aeef330c53c1) (-130), lit 0x14b5a92a606047 (-76), lit 0x11d368 (-21));
    (lit 0x18e6ff749ebacb (-129), lit 0x116186fcf54bbd (-74), lit 0x121786 (-21));
    (lit 0x1c09d761c548eb (-136), lit 0x118efabeb7d722 (-79), lit 0x125c0a (-21));
    (lit 0x1aaa73a428e1e4 (-130), lit (-0x1e5fc7d238691d) (-76), lit 0x12a0f4 (-21));
    (lit (-0x1af2f3d8b63fba) (-131), lit 0x1f5809faf6283c (-74), lit 0x12e644 (-21));
    (lit (-0x1af2f3d8b63fba) (-131), lit 0x1f5809faf6283c (-74), lit 0x12e644 (-21));
    (lit 0x178de359f2bb88 (-129), lit 0x1c6e1dcd0cb449 (-74), lit 0x132bfe (-21));
    (lit (-0x1415ae1a715618) (-128), lit 0x176e0e8f74b4d5 (-74), lit 0x137222 (-21));
    (lit (-0x14991b5375621f) (-131), lit (-0x1cb82c89692d99) (-76), lit 0x13b8b2 (-21));
    (lit (-0x1827d37deb2236) (-128), lit (-0x163161c5432aeb) (-74), lit 0x13ffae (-21));
    (lit 0x19576edac01c78 (-129), lit 0x1458104c41b901 (-74), lit 0x144716 (-21));
    (lit 0x19576edac01c78 (-129), lit 0x1458104c41b901 (-74), lit 0x144716 (-21));
    (lit (-0x105a27b81e2219) (-129), lit (-0x1cd9d0cde578d5) (-74), lit 0x148ef (-17));
    (lit 0x1237616778b4ba (-134), lit 0x1b9884591add87 (-78), lit 0x14d738 (-21));
    (lit 0x13b7d7e5d148bb (-128), lit 0x1c6042978605ff (-74), lit 0x151ff2 (-21));
    (lit (-0x1cc3f936a5977c) (-131), lit (-0x1fc4c96b37dcf6) (-74), lit 0x156922 (-21));
    (lit 0x120164a049664d (-135), lit (-0x12f346e2bf924b) (-76), lit 0x15b2c4 (-21));
    (lit 0x120164a049664d (-135), lit (-0x12f346e2bf924b) (-76), lit 0x15b2c4 (-21));
    (lit (-0x1a212919a92f7a) (-129), lit 0x1c4e4fbb68a4d1 (-74), lit 0x15fcdc (-21));
    (lit (-0x1b64b03f7230dd) (-129), lit (-0x19d499bd9b3226) (-75), lit 0x16476e (-21));
    (lit (-0x11ec6379e6e3b9) (-129), lit (-0x1f89b355ede26f) (-75), lit 0x169278 (-21));
    (lit (-0x11ec6379e6e3b9) (-129), lit (-0x1f89b355ede26f) (-75), lit 0x169278 (-21));
    (lit (-0x14ba44c03bfbbd) (-130), lit 0x153c7e319f6e92 (-76), lit 0x16ddfc (-21));
    (lit (-0x1c36fc650d030f) (-129), lit (-0x1b291f070528c7) (-74), lit 0x1729fe (-21));
    (lit (-0x169e5693a7f067) (-132), lit 0x12967a451a7b48 (-77), lit 0x17767c (-21));
    (lit (-0x169e5693a7f067) (-132), lit 0x12967a451a7b48 (-77), lit 0x17767c (-21));
    (lit 0x16598aae91499a (-128), lit 0x1244fcff690fce (-74), lit 0x17c37a (-21));
    (lit 0x199d61ec432837 (-129), lit 0x146fd97f5dc572 (-75), lit 0x1810fa (-21));
    (lit 0x199d61ec432837 (-129), lit 0x146fd97f5dc572 (-75), lit 0x1810fa (-21));
    (lit 0x1855c42078f81b (-128), lit (-0x1f3a7352663e5) (-70), lit 0x185efe (-21));
    (lit (-0x159408e815107) (-125), lit 0x1b3cda690370b5 (-75), lit 0x18ad84 (-21));
    (lit (-0x159408e815107) (-125), lit 0x1b3cda690370b5 (-75), lit 0x18ad84 (-21));
    (lit 0x133b318085e50a (-130), lit 0x13226b211bf1d9 (-75), lit 0x18fc92 (-21));
    (lit 0x1343fe7c9cb4ae (-131), lit 0x1d24b136c101ee (-75), lit 0x194c28 (-21));
    (lit 0x1343fe7c9cb4ae (-131), lit 0x1d24b136c101ee (-75), lit 0x194c28 (-21));
    (lit (-0x1d19522e56fe6) (-124), lit 0x17c40c7907e82a (-74), lit 0x199c48 (-21));
    (lit (-0x123b9d8ea55c3e) (-129), lit (-0x1e81781d97ee91) (-74), lit 0x19ecf6 (-21));
    (lit (-0x123b9d8ea55c3e) (-129), lit (-0x1e81781d97ee91) (-74), lit 0x19ecf6 (-21));
    (lit 0x1829440c24aeb6 (-130), lit (-0x16a77813f94e01) (-74), lit 0x1a3e3 (-17));
    (lit (-0x1624140d175ba2) (-128), lit (-0x11cfdeb43cfd) (-66), lit 0x1a8ffa (-21));
    (lit (-0x1624140d175ba2) (-128), lit (-0x11cfdeb43cfd) (-66), lit 0x1a8ffa (-21));
    (lit 0x1afa6f024fb045 (-129), lit (-0x1f983f74d3138f) (-75), lit 0x1ae256 (-21));
    (lit (-0x1603ad3a5d326d) (-130), lit (-0x1e278ae1a1f51f) (-75), lit 0x1b3546 (-21));
    (lit (-0x1603ad3a5d326d) (-130), lit (-0x1e278ae1a1f51f) (-75), lit 0x1b3546 (-21));
    (lit (-0x10c1e0e5855d6a) (-129), lit (-0x197552b7b5ea45) (-75), lit 0x1b88cc (-21));
    (lit (-0x10c1e0e5855d6a) (-129), lit (-0x197552b7b5ea45) (-75), lit 0x1b88cc (-21));
    (lit 0x1c817ad56baa16 (-130), lit (-0x119b4f3c72c4f8) (-76), lit 0x1bdcea (-21));
    (lit 0x144c47ac1bf62b (-129), lit 0x1f7402d26f1a12 (-75), lit 0x1c31a2 (-21));
    (lit 0x144c47ac1bf62b (-129), lit 0x1f7402d26f1a12 (-75), lit 0x1c31a2 (-21));
    (lit (-0x169b9465eae1e6) (-130), lit (-0x12056d5dd31d96) (-75), lit 0x1c86f8 (-21));
    (lit (-0x169b9465eae1e6) (-130), lit (-0x12056d5dd31d96) (-75), lit 0x1c86f8 (-21));
    (lit (-0x124a6d9d1d1904) (-131), lit (-0x16e46335aae723) (-76), lit 0x1cdcec (-21));
    (lit (-0x13826144575ac4) (-128), lit (-0x1beb244c59f331) (-74), lit 0x1d3382 (-21));
    (lit (-0x13826144575ac4) (-128), lit (-0x1beb244c59f331) (-74), lit 0x1d3382 (-21));
    (lit 0x1dbc96b3b12b25 (-133), lit 0x116c071e93fd97 (-79), lit 0x1d8aba (-21));
    (lit 0x1dbc96b3b12b25 (-133), lit 0x116c071e93fd97 (-79), lit 0x1d8aba (-21));
    (lit 0x168a8ccdbd1f33 (-129), lit 0x1d8175819530c2 (-74), lit 0x1de298 (-21));
    (lit 0x168a8ccdbd1f33 (-129), lit 0x1d8175819530c2 (-74), lit 0x1de298 (-21));
    (lit 0x1e586711df5ea1 (-131), lit 0x151bd552842c1c (-75), lit 0x1e3b2 (-17));
    (lit 0x1e586711df5ea1 (-131), lit 0x151bd552842c1c (-75), lit 0x1e3b2 (-17));
    (lit (-0x1bc25adf042483) (-131), lit 0x1914e204f19d94 (-74), lit 0x1e9452 (-21));
    (lit (-0x1bc25adf042483) (-131), lit 0x1914e204f19d94 (-74), lit 0x1e9452 (-21));
    (lit 0x1d7d82b65c5686 (-128), lit 0x1c55d997da24fd (-74), lit 0x1eee32 (-21));
    (lit 0x1d7d82b65c5686 (-128), lit 0x1c55d997da24fd (-74), lit 0x1eee32 (-21));
    (lit (-0x13f108c0857ca3) (-129), lit (-0x1685c2d2298a6e) (-74), lit 0x1f48c4 (-21));
    (lit (-0x13f108c0857ca3) (-129), lit (-0x1685c2d2298a6e) (-74), lit 0x1f48c4 (-21));
    (lit (-0x1bd800bca7a221) (-130), lit 0x17a4887bd74039 (-74), lit 0x1fa406 (-21));
    (lit 0 0, lit 0 0, lit 0x1 0)].

(** powf_data.hpp:178-372 LOG2_R2_DD, the members in the order written *)
Definition pf_LOG2_R2_DD : list (Z * Z) := [
    (lit 0x1ff25180953e64 (-114), lit (-0x1720c2ab2312a9) (-60));
    (lit (-0x115ffd79560d8f) (-114), lit (-0x16c4c92b1478ff) (-60));
    (lit 0x1b8d6d6f2e3579 (-114), lit (-0x1668ce3c873549) (-60));
    (lit (-0x15bfc3f0d5ef71) (-114), lit (-0x160cd1df6fde91) (-60));
    (lit (-0x1d1f7a8777984a) (-116), lit (-0x15b0d413c30b5e) (-60));
    (lit 0x18e858515b8343 (-118), lit (-0x1554d4d97551ab) (-60));
    (lit 0x1e165c4014c1f2 (-114), lit (-0x14f8d4307b46ec) (-60));
    (lit 0x10f84b2cc14c7e (-115), lit (-0x149cd218c9800b) (-60));
    (lit 0x1de618ed0db9a6 (-114), lit (-0x1440ce9254916c) (-60));
    (lit (-0x1f6b8587e64f22) (-114), lit (-0x13e4c99d110ee7) (-60));
    (lit (-0x17f793c84cfa63) (-116), lit (-0x1388c338f38bd) (-56));
    (lit (-0x17d7ecf6258c9a) (-117), lit (-0x132cbb65f09aee) (-60));
    (lit (-0x1810bc5ac188f5) (-114), lit (-0x12d0b223fcce81) (-60));
    (lit (-0x1950035fc5b67c) (-114), lit (-0x1274a7730cb841) (-60));
    (lit 0x14f47f3048cdad (-114), lit (-0x12189b5314e95d) (-60));
    (lit 0x1269519861e298 (-120), lit (-0x11bc8dc409f279) (-60));
    (lit (-0x15c2b0a46a7e2f) (-114), lit (-0x11607ec5e063b3) (-60));
    (lit 0x15001ac8f0bda8 (-115), lit (-0x11046e588ccca) (-56));
    (lit 0x1106f246af5d41 (-114), lit (-0x10a85c7c03bc4a) (-60));
    (lit 0x182a00583b34ba (-118), lit (-0x10354423e3c666) (-60));
    (lit 0x1b6f37deb3137 (-113), lit (-0x1fb25e19f11aec) (-61));
    (lit (-0x144a2140444811) (-115), lit (-0x1efa310d6550ec) (-61));
    (lit 0x1f5e68a763133f (-115), lit (-0x1e4201220d4858) (-61));
    (lit 0x1692083115f0b9 (-115), lit (-0x1d89ce57d219a6) (-61));
    (lit 0x1144bb17b9ac9c (-115), lit (-0x1cd198ae9cdc3d) (-61));
    (lit 0x1ee7f086d32c05 (-115), lit (-0x1c19602656a671) (-61));
    (lit (-0x1d4f1167538dbe) (-115), lit (-0x1b6124bee88d82) (-61));
    (lit 0x17df8d226c67e (-111), lit (-0x1aa8e6783ba5a2) (-61));
    (lit 0x160545d61b9512 (-115), lit (-0x19f0a5523901eb) (-61));
    (lit 0x154c99c291702 (-111), lit (-0x1938614cc9b468) (-61));
    (lit (-0x1a7e678d7280de) (-116), lit (-0x18801a67d6ce1) (-57));
    (lit (-0x16d419bbeb223a) (-116), lit (-0x17c7d0a3495ec9) (-61));
    (lit 0x1ce2b9892e27e9 (-116), lit (-0x170f83ff0a7565) (-61));
    (lit (-0x1a4db4eff7bd61) (-115), lit (-0x1657347b031fa2) (-61));
    (lit 0x15bb04682fab82 (-115), lit (-0x159ee2171c6a2f) (-61));
    (lit (-0x178b8bfe6a3ade) (-116), lit (-0x14e68cd33f60a3) (-61));
    (lit 0x1574c3ce9b89b1 (-115), lit (-0x142e34af550d87) (-61));
    (lit 0x108fb216647b7b (-115), lit (-0x1375d9ab467a4d) (-61));
    (lit 0x1ed5a50e7b919c (-118), lit (-0x12bd7bc6fcaf56) (-61));
    (lit 0x191ad7a23f86fe (-115), lit (-0x12051b0260b3f) (-57));
    (lit 0x13ab2c932b8b0a (-116), lit (-0x114cb75d5b8e54) (-61));
    (lit (-0x1c63bcdf120f7a) (-115), lit (-0x109450d7d643a9) (-61));
    (lit 0x18af8c4ab4e82d (-116), lit (-0x1fb7cee373b008) (-62));
    (lit 0x1a52c2ca9d8b9b (-117), lit (-0x1e46f655de9cc6) (-62));
    (lit (-0x1460b177a58742) (-116), lit (-0x1cd61806bf5166) (-62));
    (lit 0x1611089de8d12a (-118), lit (-0x1b6533f5e7cf9b) (-62));
    (lit (-0x14209853cee70c) (-121), lit (-0x19f44a232a16ee) (-62));
    (lit 0x1964e032541a28 (-116), lit (-0x18835a8e5824c3) (-62));
    (lit (-0x1fa9f94392637b) (-118), lit (-0x1712653743f454) (-62));
    (lit (-0x13293693721a53) (-116), lit (-0x15a16a1dbf7eb6) (-62));
    (lit (-0x16e2af03c83c6e) (-120), lit (-0x143069419cbad5) (-62));
    (lit (-0x1b5f05b9d5bd29) (-117), lit (-0x12bf62a2ad9d74) (-62));
    (lit 0x13db883c072f72 (-116), lit (-0x114e5640c4193) (-58));
    (lit (-0x1a675a1c045304) (-120), lit (-0x1fba8837643cf6) (-63));
    (lit 0x13b9c2aeb00068 (-118), lit (-0x1cd85866933743) (-63));
    (lit (-0x12911a381901eb) (-118), lit (-0x19f61d0eb8f98b) (-63));
    (lit (-0x15ea75a74def03) (-120), lit (-0x1713d62f7957c3) (-63));
    (lit (-0x1305b92f93ffe) (-115), lit (-0x143183c878218d) (-63));
    (lit 0x1b7c8c8dd40d35 (-120), lit (-0x114f25d959223a) (-63));
    (lit 0x1dc915d58a62f6 (-118), lit (-0x1cd978c3804191) (-64));
    (lit 0x1c7bc3fe53cd94 (-118), lit (-0x17148ec2a1bfc9) (-64));
    (lit (-0x1427ce595cc53c) (-119), lit (-0x114f8daf5e3bcf) (-64));
    (lit (-0x1d523885ac824c) (-119), lit (-0x1714eb11fa5363) (-65));
    (lit (-0x1945957f63330a) (-121), lit (-0x1715193b17d35d) (-66)); (lit 0 0, lit 0 0);
    (lit (-0x188fb2ea8bf9ea) (-122), lit 0x17157590356aee (-66));
    (lit (-0x15aeaee345d04e) (-120), lit 0x1715a3bc3593d5 (-65));
    (lit (-0x17fce430230132) (-118), lit 0x11505d6ee104c5 (-64));
    (lit (-0x19a480f204ff09) (-122), lit 0x1716001718cb2b (-64));
    (lit (-0x100e7233f2d8bd) (-120), lit 0x1cdbb9d77ae5a8 (-64));
    (lit 0x109d379fa18c5d (-119), lit 0x1150c5586012b8 (-63));
    (lit 0x1b6b9d90a104d3 (-117), lit 0x1433b951d0b231 (-63));
    (lit 0x14d9a3ea651885 (-117), lit 0x1716b8d86bc285 (-63));
    (lit (-0x17590b3a76f0f9) (-119), lit 0x19f9c3ec8db94f (-63));
    (lit 0x1f183ca5b21bfe (-117), lit 0x1cdcda8e93107f (-63));
    (lit (-0x1a7e3465ba127) (-114), lit 0x1fbffcbed8465f (-63));
    (lit (-0x17821f738d1221) (-116), lit 0x1151953edceec6 (-62));
    (lit 0x13bb4c0fb95359 (-117), lit 0x12c331e5ca2e7d (-62));
    (lit 0x1236028e962f8 (-112), lit 0x1434d4546227fc (-62));
    (lit 0x1aaaa64d30f184 (-118), lit 0x15a67c8ad32315 (-62));
    (lit (-0x1a821b7cc57a7a) (-116), lit 0x17182a894b69c6 (-62));
    (lit (-0x113d9d78aace21) (-116), lit 0x1889de4ff94838 (-62));
    (lit (-0x12f249a6b923a) (-112), lit 0x19fb97df0b0cc2 (-62));
    (lit (-0x1d47dc3664be7a) (-120), lit 0x1b6d5736af07e6 (-62));
    (lit 0x1bd1522c6418fb (-116), lit 0x1cdf1c57138c53 (-62));
    (lit (-0x1bacdbb22d2163) (-116), lit 0x1e50e74066eee6 (-62));
    (lit (-0x1ca7604812d77b) (-116), lit 0x1fc2b7f2d786a5 (-62));
    (lit (-0x12b6832f8830bf) (-115), lit 0x109a473749d663 (-61));
    (lit 0x14e712033d0457 (-117), lit 0x11533559e4de55 (-61));
    (lit (-0x1473dd044017b5) (-118), lit 0x120c26615409f1 (-61));
    (lit (-0x1e033bcac726d3) (-115), lit 0x12c51a4dae8915 (-61));
    (lit (-0x14a47a2b18a0fa) (-115), lit 0x137e111f0b8cb5 (-61));
    (lit 0x16f3615771c17b (-118), lit 0x14370ad58246dd (-61));
    (lit 0x1c0ee6c32d6236 (-117), lit 0x14f0077129eab (-57));
    (lit 0x1fa94c99761b8f (-116), lit 0x15a906f219ac67 (-61));
    (lit (-0x1979e6b473fbf8) (-116), lit 0x1662095868c153 (-61));
    (lit 0x130edde8d24c7b (-116), lit 0x171b0ea42e5fda (-61));
    (lit (-0x1d01594fe1421c) (-116), lit 0x17d416d581bf7c (-61));
    (lit 0x150bf7b995b49a (-115), lit 0x188d21ec7a18cd (-61));
    (lit (-0x128ea2bcec5018) (-115), lit 0x19462fe92ea57c (-61));
    (lit 0x1ed6add489c30b (-117), lit 0x19ff40cbb6a04b (-61));
    (lit 0x1201d5c3bbeb69 (-116), lit 0x1ab85494294517 (-61));
    (lit (-0x1a05d0d4461ea9) (-116), lit 0x1b716b429dd0d3 (-61));
    (lit (-0x17c974c8a392fd) (-115), lit 0x1c2a84d72b8189 (-61));
    (lit (-0x1f068238451bde) (-116), lit 0x1ce3a151e9965b (-61));
    (lit (-0x15e4d95c6259c3) (-118), lit 0x1d9cc0b2ef4f83 (-61));
    (lit (-0x11fc262efaad6c) (-115), lit 0x1e55e2fa53ee53 (-61));
    (lit 0x149eee7abc7716 (-115), lit 0x1f0f08282eb533 (-61));
    (lit (-0x1903de284d2782) (-117), lit 0x1fc8303c96e7a6 (-61));
    (lit (-0x1ec564845134cb) (-115), lit 0x1040ad9bd1e522 (-60));
    (lit (-0x17692b7791cf1f) (-118), lit 0x10861eadabc3dc (-60));
    (lit (-0x137829afb11c1) (-110), lit 0x10e2b6b51e4f7e (-60));
    (lit 0x16706b91c3b0ba (-114), lit 0x113f5030033459 (-60));
    (lit (-0x17558ccd710756) (-114), lit 0x119beb1e6616c9 (-60));
    (lit 0x179f72a5bbe9de (-114), lit 0x11f88780529bb1 (-60));
    (lit (-0x1e1297c110b25) (-110), lit 0x12552555d46886 (-60));
    (lit 0x129930d567ca26 (-114), lit 0x12b1c49ef72343 (-60));
    (lit 0x1a08cbd7592a17 (-117), lit 0x130e655bc67275 (-60));
    (lit 0x1e4f9d4ac5db83 (-114), lit 0x136b078c4dfd31 (-60));
    (lit (-0x1ed1b0aafd30c2) (-114), lit 0x13c7ab30996b1c (-60));
    (lit 0x1e78f0aa014b32 (-114), lit 0x14245048b46462 (-60));
    (lit 0x18594548038a0f (-121), lit 0x1480f6d4aa91c2 (-60));
    (lit 0x13df498168a333 (-115), lit 0x14dd9ed4879c82 (-60));
    (lit 0x1b1c502544f82a (-114), lit 0x153a4848572e77 (-60));
    (lit (-0x1dc50552fe0da9) (-115), lit 0x1596f33024f203 (-60));
    (lit (-0x1671d85c357d5e) (-114), lit 0x15f39f8bfc9212 (-60));
    (lit 0x11c670cabccefa (-116), lit 0x16504d5be9ba1e (-60));
    (lit (-0x19983a9e98f318) (-114), lit 0x16acfc9ff8162f (-60));
    (lit 0x1ae1a26af3eebe (-114), lit 0x1709ad583352d6 (-60));
    (lit 0x1655eb510bfda3 (-114), lit 0x17665f84a71d35 (-60));
    (lit (-0x1e287bc0192e15) (-116), lit 0x17c313255f22f8 (-60));
    (lit 0x1cc4944139ccbf (-115), lit 0x181fc83a671257 (-60));
    (lit 0x14e09b4cb8645b (-114), lit 0x187c7ec3ca9a19 (-60));
    (lit (-0x15becc991e3a5f) (-116), lit 0x18d936c1956991 (-60));
    (lit (-0x1ddfa3f1e15ba8) (-114), lit 0x1935f033d3309e (-60));
    (lit (-0x1b7b06ea3fb362) (-114), lit 0x1992ab1a8f9fac (-60));
    (lit 0x132d614904e46c (-114), lit 0x19ef6775d667b4 (-60));
    (lit (-0x17186892b5bfae) (-116), lit 0x1a4c2545b33a3e (-60));
    (lit (-0x1d4de10b28dfd8) (-114), lit 0x1aa8e48a31c95c (-60));
    (lit 0x14bb4b3bdc8175 (-114), lit 0x1b05a5435dc7ad (-60));
    (lit 0x19cedbd1d7fba5 (-114), lit 0x1b62677142e86 (-56));
    (lit (-0x10ed3379beaffd) (-118), lit 0x1bbf2b13ecdf2f (-60));
    (lit 0x16e86a125567a6 (-114), lit 0x1c1bf02b67606 (-56));
    (lit (-0x135038e0c0a52c) (-114), lit 0x1c6184f1b326d9 (-60));
    (lit 0x105ef8bf5adf5e (-119), lit 0x1cbe4c95b6c5ab (-60));
    (lit (-0x1b7338b99a6b26) (-117), lit 0x1d1b15aeab217c (-60));
    (lit 0x19e901c30c427e (-115), lit 0x1d77e03c9bf0a4 (-60));
    (lit (-0x11f28a9c0b3d47) (-114), lit 0x1dd4ac3f94ea0a (-60));
    (lit (-0x1140ef760d3b63) (-114), lit 0x1e3179b7a1c52 (-56));
    (lit (-0x1ab65b1037f517) (-115), lit 0x1e8e48a4ce39e7 (-60));
    (lit (-0x176940c457ce6d) (-115), lit 0x1eeb19072600ed (-60));
    (lit 0x1da3ae65a605cf (-116), lit 0x1f47eadeb4d34d (-60));
    (lit 0x1b15d0bce2ede6 (-114), lit 0x1fa4be2b866ab (-56));
    (lit 0x1e02aa1fa9dc57 (-113), lit 0x1000c976d340a6 (-59));
    (lit 0x16be971a5565b9 (-114), lit 0x102f34929068f3 (-59));
    (lit (-0x18a9319a6ed164) (-116), lit 0x105da069008be7 (-59));
    (lit 0x1825079f1e0ec5 (-114), lit 0x108c0cfa298771 (-59));
    (lit 0x160d5749321466 (-115), lit 0x10ba7a461139c8 (-59));
    (lit (-0x15b8f4c479e2e) (-109), lit 0x10e8e84cbd8169 (-59));
    (lit (-0x1e3e1248004e29) (-114), lit 0x1117570e343d17 (-59));
    (lit 0x19ac06487c375 (-111), lit 0x1145c68a7b4bdd (-59));
    (lit 0x1f657ea5c03ea4 (-114), lit 0x117436c1988d0d (-59));
    (lit (-0x15a965659a05e2) (-113), lit 0x11a2a7b391e04 (-55));
    (lit (-0x121ce9b9bfc512) (-113), lit 0x11d119606d2554 (-59));
    (lit (-0x130fda247ad0e1) (-113), lit 0x11ff8bc8303c7 (-55));
    (lit (-0x1382c78a45cdea) (-114), lit 0x122dfeeae10601 (-59));
    (lit 0x146ae4a64073d4 (-113), lit 0x1250d5bf952374 (-59));
    (lit (-0x1dcad2cec3b84b) (-114), lit 0x127f4a29740a2f (-59));
    (lit (-0x1413fbeb0b0635) (-113), lit 0x12adbf4e50cdf9 (-59));
    (lit 0x1f28e6a48bcb9 (-109), lit 0x12dc352e315049 (-59));
    (lit (-0x196f286e1eb086) (-113), lit 0x130aabc91b72e (-55));
    (lit (-0x1f88c04206dfa1) (-113), lit 0x1339231f1517c1 (-59));
    (lit (-0x111ea20e195841) (-113), lit 0x13679b30242139 (-59));
    (lit (-0x1d6e71452b674a) (-115), lit 0x139613fc4e71dc (-59));
    (lit (-0x157c578233b1b3) (-113), lit 0x13c48d8399ec85 (-59));
    (lit (-0x1ec430f03b76e) (-111), lit 0x13f307c60c7455 (-59));
    (lit 0x1e00dd1902ffb9 (-113), lit 0x142182c3abecb5 (-59));
    (lit (-0x1f22bcd96afe38) (-113), lit 0x144ffe7c7e3957 (-59));
    (lit 0x108fd90f841d3 (-109), lit 0x147e7af0893e2f (-59));
    (lit 0x109594c5552bcc (-114), lit 0x14acf81fd2df7e (-59));
    (lit (-0x101a8a652e5602) (-113), lit 0x14db760a6101c9 (-59));
    (lit (-0x1826168febb3d) (-112), lit 0x1509f4b03989dc (-59));
    (lit (-0x17eb21a35021e3) (-114), lit 0x15387411625ccc (-59));
    (lit (-0x166cbc818e175) (-109), lit 0x1566f42de15ff4 (-59));
    (lit 0x19b784dd6cebda (-116), lit 0x15957505bc78f6 (-59));
    (lit 0x12b121ab482456 (-113), lit 0x15b8562298c65b (-59));
    (lit (-0x15d29869dd8233) (-114), lit 0x15e6d842633702 (-59));
    (lit (-0x1572a1b6cd63cf) (-113), lit 0x16155b1d99f672 (-59));
    (lit (-0x1a1f355360e877) (-114), lit 0x1643deb442eb59 (-59));
    (lit (-0x1b6f1cd2e1c03f) (-113), lit 0x1672630663fcad (-59));
    (lit (-0x12aaa11ccddcae) (-113), lit 0x16a0e8140311aa (-59));
    (lit 0x13d979ddf4746c (-113), lit 0x16cf6ddd2611d4 (-59));
    (lit (-0x1dc930484501f8) (-115), lit 0x16fdf461d2e4f8 (-59))].
