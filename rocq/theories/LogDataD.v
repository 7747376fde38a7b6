(** * The tables of the double kernels of log and log2

    Transcribed from the data headers of math/expo/impl. *)
From Coq Require Import ZArith List Bool.
From Verif Require Import Fmt FOps ExpoData.
Import ListNotations.
Open Scope Z_scope.

(** log_data.hpp:67 ln2hi *)
Definition logd_ln2hi : Z := lit 0x162e42fefa3800 (-53).

(** log_data.hpp:68 ln2lo *)
Definition logd_ln2lo : Z := lit 0x1ef35793c76730 (-97).

(** log_data.hpp:74-74 poly of log_data<double> *)
Definition logd_poly : list Z := [
    lit (-0x10000000000001) (-53); lit 0x1555555551305b (-54); lit (-0x1fffffffeb459) (-51);
    lit 0x1999b324f10111 (-55); lit (-0x155575e506c89f) (-55)].

(** log_data.hpp:80-90 poly1 of log_data<double> *)
Definition logd_poly1 : list Z := [
    lit (-0x1) (-1); lit 0x15555555555577 (-54); lit (-0x1ffffffffffdcb) (-55);
    lit 0x1999999995dd0c (-55); lit (-0x155555556745a7) (-55); lit 0x124924a344de3 (-51);
    lit (-0x1fffffa4423d65) (-56); lit 0x1c7184282ad6ca (-56); lit (-0x1999eb43b068ff) (-56);
    lit 0x178182f7afd085 (-56); lit (-0x15521375d145cd) (-56)].

(** log_data.hpp:100-163 the table (invc, logc) of log_data<double> *)
Definition logd_tab : list (Z * Z) := [
    (lit 0x1734f0c3e0de9f (-52), lit (-0x17cc7f79e69000) (-54)); (lit 0x1713786a2ce91f (-52), lit (-0x176feec20d0000) (-54));
    (lit 0x16f26008fab5a0 (-52), lit (-0x1713e31351e000) (-54)); (lit 0x16d1a61f138c7d (-52), lit (-0x16b85b38287800) (-54));
    (lit 0x16b1490bc5b4d1 (-52), lit (-0x165d5590807800) (-54)); (lit 0x169147332f0cba (-52), lit (-0x1602d076180000) (-54));
    (lit 0x16719f18224223 (-52), lit (-0x15a8ca86909000) (-54)); (lit 0x16524f99a51ed9 (-52), lit (-0x154f4356035000) (-54));
    (lit 0x163356aa8f24c4 (-52), lit (-0x14f637c36b4000) (-54)); (lit 0x1614b36b9ddc14 (-52), lit (-0x149da7fda85000) (-54));
    (lit 0x15f66452c65c4c (-52), lit (-0x1445923989a800) (-54)); (lit 0x15d867b5912c4f (-52), lit (-0x13edf439b0b800) (-54));
    (lit 0x15babccb5b90de (-52), lit (-0x1396ce448f7000) (-54)); (lit 0x159d61f2d91a78 (-52), lit (-0x13401e17bda000) (-54));
    (lit 0x15805612465687 (-52), lit (-0x12e9e2ef468000) (-54)); (lit 0x156397cee76bd3 (-52), lit (-0x12941b3830e000) (-54));
    (lit 0x154725e2a77f93 (-52), lit (-0x123ec58cda8800) (-54)); (lit 0x152aff42064583 (-52), lit (-0x11e9e129279000) (-54));
    (lit 0x150f22dbb2bddf (-52), lit (-0x11956d2b48f800) (-54)); (lit 0x14f38f4734ded7 (-52), lit (-0x1141679ab9f800) (-54));
    (lit 0x14d843cfde2840 (-52), lit (-0x10edd094ef9800) (-54)); (lit 0x14bd3ec078a3c8 (-52), lit (-0x109aa518db1000) (-54));
    (lit 0x14a27fc3e0258a (-52), lit (-0x1047e65263b800) (-54)); (lit 0x14880524d48434 (-52), lit (-0x1feb224586f000) (-55));
    (lit 0x146dce1b192d0b (-52), lit (-0x1f474a7517b000) (-55)); (lit 0x1453d9d3391854 (-52), lit (-0x1ea4443d103000) (-55));
    (lit 0x143a2744b4845a (-52), lit (-0x1e020d44e9b000) (-55)); (lit 0x1420b54115f8fb (-52), lit (-0x1d60a22977f000) (-55));
    (lit 0x140782da3ef4b1 (-52), lit (-0x1cc00104959000) (-55)); (lit 0x13ee8f5d57fe8f (-52), lit (-0x1c202956891000) (-55));
    (lit 0x13d5d9a00b4ce9 (-52), lit (-0x1b81178d811000) (-55)); (lit 0x13bd60c010c12b (-52), lit (-0x1ae2c9ccd3d000) (-55));
    (lit 0x13a5242b75dab8 (-52), lit (-0x1a45402e129000) (-55)); (lit 0x138d22cd9fd002 (-52), lit (-0x19a877681df000) (-55));
    (lit 0x13755bc5847a1c (-52), lit (-0x190c6d69483000) (-55)); (lit 0x135dce49ad36e2 (-52), lit (-0x187120a645c000) (-55));
    (lit 0x134679984dd440 (-52), lit (-0x17d68fb4143000) (-55)); (lit 0x132f5cceffcb24 (-52), lit (-0x173cb83c627000) (-55));
    (lit 0x13187775a10d49 (-52), lit (-0x16a39a9b376000) (-55)); (lit 0x1301c8373e3990 (-52), lit (-0x160b3154b7a000) (-55));
    (lit 0x12eb4ebb95f841 (-52), lit (-0x15737d76243000) (-55)); (lit 0x12d50a0219a9d1 (-52), lit (-0x14dc7b8fc23000) (-55));
    (lit 0x12bef9a8b7fd2a (-52), lit (-0x14462c51d20000) (-55)); (lit 0x12a91c7a0c1bab (-52), lit (-0x13b08abc830000) (-55));
    (lit 0x1293726014b530 (-52), lit (-0x131b996b490000) (-55)); (lit 0x127dfa5757a1f5 (-52), lit (-0x12875490a44000) (-55));
    (lit 0x1268b39b1d3bbf (-52), lit (-0x11f3b9f879a000) (-55)); (lit 0x12539d838ff5bd (-52), lit (-0x1160c8252ca000) (-55));
    (lit 0x123eb7aac9083b (-52), lit (-0x10ce7f57f72000) (-55)); (lit 0x122a012ba940b6 (-52), lit (-0x103cdc49fea000) (-55));
    (lit 0x12157996cc4132 (-52), lit (-0x1f57bdbc4b8000) (-56)); (lit 0x1201201dd2fc9b (-52), lit (-0x1e370896404000) (-56));
    (lit 0x11ecf4494d480b (-52), lit (-0x1d17983ef94000) (-56)); (lit 0x11d8f5528f6569 (-52), lit (-0x1bf9674ed8a000) (-56));
    (lit 0x11c52311577e7c (-52), lit (-0x1adc79202f6000) (-56)); (lit 0x11b17c74cb26e9 (-52), lit (-0x19c0c3e7288000) (-56));
    (lit 0x119e010c2c1ab6 (-52), lit (-0x18a646b372c000) (-56)); (lit 0x118ab07bb670bd (-52), lit (-0x178d01b3ac0000) (-56));
    (lit 0x11778a25efbcb6 (-52), lit (-0x1674f145380000) (-56)); (lit 0x11648d354c31da (-52), lit (-0x155e0e6d878000) (-56));
    (lit 0x1151b990275fdd (-52), lit (-0x14485cdea1e000) (-56)); (lit 0x113f0ea432d24c (-52), lit (-0x1333d94d6aa000) (-56));
    (lit 0x112c8b7210f9da (-52), lit (-0x122079f8c56000) (-56)); (lit 0x111a3028ecb531 (-52), lit (-0x110e4698622000) (-56));
    (lit 0x1107fbda8434af (-52), lit (-0x1ffa6c6ad20000) (-57)); (lit 0x10f5ee0f4e6bb3 (-52), lit (-0x1dda8d4a774000) (-57));
    (lit 0x10e4065d2a9fce (-52), lit (-0x1bbcece4850000) (-57)); (lit 0x10d244632ca521 (-52), lit (-0x19a1894012c000) (-57));
    (lit 0x10c0a77ce2981a (-52), lit (-0x1788583302c000) (-57)); (lit 0x10af2f83c636d1 (-52), lit (-0x15715e67d68000) (-57));
    (lit 0x109ddb98a01339 (-52), lit (-0x135c8a49658000) (-57)); (lit 0x108cabaf52e7df (-52), lit (-0x1149e364154000) (-57));
    (lit 0x107b9f2f4e28fb (-52), lit (-0x1e72c082eb8000) (-58)); (lit 0x106ab58c358f19 (-52), lit (-0x1a55f152528000) (-58));
    (lit 0x1059eea5ecf92c (-52), lit (-0x163d62cf818000) (-58)); (lit 0x104949cdd12c90 (-52), lit (-0x1228fb8caa0000) (-58));
    (lit 0x1038c6c6f0ada9 (-52), lit (-0x1c317b20f90000) (-59)); (lit 0x102865137932a9 (-52), lit (-0x1419355daa0000) (-59));
    (lit 0x10182427ea7348 (-52), lit (-0x181203c2ec0000) (-60)); (lit 0x1008040614b195 (-52), lit (-0x10040979240000) (-61));
    (lit 0x1fe01ff726fa1a (-53), lit 0x1feff384900000 (-61)); (lit 0x1fa11cc261ea74 (-53), lit 0x17dc41353d0000 (-59));
    (lit 0x1f6310b081992e (-53), lit 0x13cea3c4c28000 (-58)); (lit 0x1f25f63ceeadcd (-53), lit 0x1b9fc114890000 (-58));
    (lit 0x1ee9c8039113e7 (-53), lit 0x11b0d8ce110000 (-57)); (lit 0x1eae8078cbb1ab (-53), lit 0x158a5bd001c000 (-57));
    (lit 0x1e741aa29d0c9b (-53), lit 0x195c8340d88000 (-57)); (lit 0x1e3a91830a99b5 (-53), lit 0x1d276aef578000 (-57));
    (lit 0x1e01e009609a56 (-53), lit 0x107598e598c000 (-56)); (lit 0x1dca01e577bb98 (-53), lit 0x1253f5e30d2000 (-56));
    (lit 0x1d92f20b7c9103 (-53), lit 0x142edd8b380000 (-56)); (lit 0x1d5cac66fb5cce (-53), lit 0x1606598757c000 (-56));
    (lit 0x1d272caa5ede9d (-53), lit 0x17da76356a0000 (-56)); (lit 0x1cf26e3e6b2ccd (-53), lit 0x19ab434e1c6000 (-56));
    (lit 0x1cbe6da2a77902 (-53), lit 0x1b78c7bb0d6000 (-56)); (lit 0x1c8b266d37086d (-53), lit 0x1d431332e72000 (-56));
    (lit 0x1c5894bd5d5804 (-53), lit 0x1f0a3171de6000 (-56)); (lit 0x1c26b533bb9f8c (-53), lit 0x1067152b914000 (-55));
    (lit 0x1bf583eeece73f (-53), lit 0x1147858292b000 (-55)); (lit 0x1bc4fd75db96c1 (-53), lit 0x12266ecdca3000 (-55));
    (lit 0x1b951e0c864a28 (-53), lit 0x1303d7a6c55000 (-55)); (lit 0x1b65e2c5ef3e2c (-53), lit 0x13dfc33c331000 (-55));
    (lit 0x1b374867c9888b (-53), lit 0x14ba366b7a8000 (-55)); (lit 0x1b094b211d304a (-53), lit 0x15933928d1f000 (-55));
    (lit 0x1adbe885f2ef7e (-53), lit 0x166acd2418f000 (-55)); (lit 0x1aaf1d31603da2 (-53), lit 0x1740f8ec669000 (-55));
    (lit 0x1a82e63fd358a7 (-53), lit 0x1815c0f51af000 (-55)); (lit 0x1a5740ef09738b (-53), lit 0x18e92954f68000 (-55));
    (lit 0x1a2c2a90ab4b27 (-53), lit 0x19bb3602f84000 (-55)); (lit 0x1a01a01393f2d1 (-53), lit 0x1a8bed1c2c0000 (-55));
    (lit 0x19d79f24db3c1b (-53), lit 0x1b5b515c01d000 (-55)); (lit 0x19ae2505c7b190 (-53), lit 0x1c2967ccbcc000 (-55));
    (lit 0x19852ef297ce2f (-53), lit 0x1cf635d5486000 (-55)); (lit 0x195cbaeea44b75 (-53), lit 0x1dc1bd3446c000 (-55));
    (lit 0x1934c69de74838 (-53), lit 0x1e8c01b8cfe000 (-55)); (lit 0x190d4f2f6752e6 (-53), lit 0x1f5509c0179000 (-55));
    (lit 0x18e6528effd79d (-53), lit 0x100e6c121fb800 (-54)); (lit 0x18bfce9fcc007c (-53), lit 0x1071b80e93d000 (-54));
    (lit 0x1899c0dabec30e (-53), lit 0x10d46b9e867000 (-54)); (lit 0x187427aa2317fb (-53), lit 0x113687334bd000 (-54));
    (lit 0x184f00acb39a08 (-53), lit 0x11980d67234800 (-54)); (lit 0x182a49e8653e55 (-53), lit 0x11f8ffe0cc8000 (-54));
    (lit 0x18060195f40260 (-53), lit 0x12595fd7636800 (-54)); (lit 0x17e22563e0a329 (-53), lit 0x12b9300914a800 (-54));
    (lit 0x17beb377dcb5ad (-53), lit 0x13187210436000 (-54)); (lit 0x179baa679725c2 (-53), lit 0x1377266dec1800 (-54));
    (lit 0x177907f2170657 (-53), lit 0x13d54ffbaf3000 (-54)); (lit 0x1756cadbd6130c (-53), lit 0x1432eee32fe000 (-54))].

(** log_data.hpp:173-236 the table (chi, clo) of log_data<double> *)
Definition logd_tab2 : list (Z * Z) := [
    (lit 0x161000014fb66b (-53), lit 0x1e026c91425b3c (-108)); (lit 0x163000034db495 (-53), lit 0x1dbfea48005d41 (-107));
    (lit 0x1650000d94d478 (-53), lit 0x1e7fa786d6a5b7 (-107)); (lit 0x167000074e6fad (-53), lit 0x11fcea6b54254c (-109));
    (lit 0x168ffffedf0fae (-53), lit (-0x1c7e274c590efd) (-108)); (lit 0x16b0000763c5bc (-53), lit (-0x1ac16848dcda01) (-107));
    (lit 0x16d0001e5cc1f6 (-53), lit 0x133f1c9d499311 (-107)); (lit 0x16efffeb05f63e (-53), lit (-0x1e80041ae22d53) (-108));
    (lit 0x1710000e86978 (-49), lit 0x1bff6671097952 (-108)); (lit 0x172ffffc67e912 (-53), lit 0x1c00e226bd8724 (-107));
    (lit 0x174fffdf81116a (-53), lit (-0x1e02916ef101d2) (-109)); (lit 0x1770000f679c9 (-49), lit (-0x17fc71cd549c74) (-109));
    (lit 0x178ffffa7ec835 (-53), lit 0x11bec19ef50483 (-107)); (lit 0x17affffe20c2e6 (-53), lit (-0x107e1729cc6465) (-108));
    (lit 0x17cfffed3fc9 (-45), lit (-0x108072087b8b1c) (-107)); (lit 0x17efffe9261a76 (-53), lit 0x1dc0286d9df9ae (-107));
    (lit 0x181000049ca3e8 (-53), lit 0x197fd251e54c33 (-107)); (lit 0x18300017932c8f (-53), lit (-0x1afee9b630f381) (-107));
    (lit 0x1850000633739c (-53), lit 0x19bfbf6b6535bc (-107)); (lit 0x187000204289c6 (-53), lit (-0x1bbf65f3117b75) (-107));
    (lit 0x188fffebf57904 (-53), lit (-0x19006ea23dcb57) (-107)); (lit 0x18b00022bc04df (-53), lit (-0x1d00df38e04b0a) (-108));
    (lit 0x18cfffe50c1b8a (-53), lit (-0x18007146ff9f05) (-107)); (lit 0x18effffc918e43 (-53), lit 0x13817bd07a7038 (-107));
    (lit 0x1910001efa5fc7 (-53), lit 0x193e9176dfb403 (-107)); (lit 0x19300013467bb9 (-53), lit 0x1f804e4b980276 (-108));
    (lit 0x194fffe6ee076f (-53), lit (-0x1f7ef0d9ff622e) (-107)); (lit 0x196fffde3c12d1 (-53), lit (-0x1082aa962638ba) (-108));
    (lit 0x198ffff4458a0d (-53), lit (-0x17801b9164a8ef) (-107)); (lit 0x19afffdd982e3e (-53), lit (-0x1740e08a5a9337) (-107));
    (lit 0x19cfffed49fb66 (-53), lit 0x1fce08c19be (-100)); (lit 0x19f00020f19c51 (-53), lit (-0x1a3faa27885b0a) (-107));
    (lit 0x1a10001145b006 (-53), lit 0x14ff489958da56 (-108)); (lit 0x1a300007bbf6fa (-53), lit 0x1cbeab8a2b6d18 (-107));
    (lit 0x1a500010971d79 (-53), lit 0x18fecadd78793 (-103)); (lit 0x1a70001df52e48 (-53), lit (-0x1f41763dd8abdb) (-107));
    (lit 0x1a90001c593352 (-53), lit (-0x1ebf0284c27612) (-107)); (lit 0x1ab0002a4f3e4b (-53), lit (-0x19fd043cff3f5f) (-109));
    (lit 0x1acfffd7ae1ed1 (-53), lit (-0x123ee7129070b4) (-107)); (lit 0x1aefffee510478 (-53), lit 0x1a063ee00edea3 (-109));
    (lit 0x1b0fffdb650d5b (-53), lit 0x1a06c8381f0ab9 (-110)); (lit 0x1b2ffffeaaca57 (-53), lit (-0x19011e74233c1d) (-108));
    (lit 0x1b4fffd995badc (-53), lit (-0x19ff1068862a9f) (-108)); (lit 0x1b7000249e659c (-53), lit 0x1aff45d0864f3e (-107));
    (lit 0x1b8ffff987164 (-49), lit 0x1cfe7796c2c3f9 (-108)); (lit 0x1bafffd204cb4f (-53), lit (-0x13ff27eef22bc4) (-109));
    (lit 0x1bcfffd2415c45 (-53), lit (-0x1cffb7ee3bea21) (-109)); (lit 0x1beffff86309df (-53), lit (-0x114103972e0b5c) (-107));
    (lit 0x1c0fffe1b57653 (-53), lit 0x1bc16494b76a19 (-107)); (lit 0x1c2ffff1fa57e3 (-53), lit (-0x14feef8d30c6ed) (-109));
    (lit 0x1c4fffdcbfe424 (-53), lit (-0x143f68bcec4775) (-107)); (lit 0x1c6fffed54b9f7 (-53), lit 0x147ea3f053e0ec (-107));
    (lit 0x1c8fffeb998fd5 (-53), lit 0x1383068df992f1 (-108)); (lit 0x1cb0002125219a (-53), lit (-0x18fd8e64180e04) (-109));
    (lit 0x1ccfffdd94469c (-53), lit 0x1e7ebe1cc7ea72 (-107)); (lit 0x1cefffeafdc476 (-53), lit 0x1ebe39ad9f88fe (-107));
    (lit 0x1d1000169af82b (-53), lit 0x157d91a8b95a71 (-108)); (lit 0x1d30000d0ff71d (-53), lit 0x19c1906970c7da (-107));
    (lit 0x1d4fffea790fc4 (-53), lit (-0x180e37c558fe0c) (-110)); (lit 0x1d70002edc87e5 (-53), lit (-0x1f80d64dc10f44) (-108));
    (lit 0x1d900021dc82aa (-53), lit (-0x147c8f94fd5c5c) (-108)); (lit 0x1dafffd86b0283 (-53), lit 0x1c7f1dc521617e (-107));
    (lit 0x1dd000296c4739 (-53), lit 0x18019eb2ffb153 (-107)); (lit 0x1defffe54490f5 (-53), lit 0x1e00d2c652cc89 (-109));
    (lit 0x1e0fffcdabf694 (-53), lit (-0x1f8340202d69d2) (-108)); (lit 0x1e2fffdb52c8dd (-53), lit 0x1b00c1ca1b0864 (-108));
    (lit 0x1e4ffff24216ef (-53), lit 0x12ffa8b094ab51 (-108)); (lit 0x1e6fffe88a5e11 (-53), lit (-0x17f673b1efbe59) (-110));
    (lit 0x1e9000119eff0d (-53), lit (-0x14808d5e0bc801) (-107)); (lit 0x1eafffdfa51744 (-53), lit 0x180006d54320b5 (-108));
    (lit 0x1ed0001a127fa1 (-53), lit (-0x1002f860565c92) (-110)); (lit 0x1ef00007babcc4 (-53), lit (-0x1540445d35e611) (-107));
    (lit 0x1f0ffff57a8d02 (-53), lit (-0x1ffb3139ef9105) (-111)); (lit 0x1f30001ee58ac7 (-53), lit 0x1a81acf2731155 (-107));
    (lit 0x1f4ffff5823494 (-53), lit 0x1a3f41d4d7c743 (-107)); (lit 0x1f6ffffca94c6b (-53), lit (-0x1202f41c987875) (-109));
    (lit 0x1f8fffe1f9c441 (-53), lit 0x177dd1f477e74b (-108)); (lit 0x1fafffd2e0e37e (-53), lit (-0x1f01199a7ca331) (-109));
    (lit 0x1fd0001c77e49e (-53), lit 0x1181ee4bceacb1 (-108)); (lit 0x1feffff7e0c331 (-53), lit (-0x1e05370170875a) (-109));
    (lit 0x100ffff465606e (-52), lit (-0x1a7ead491c0ada) (-107)); (lit 0x102ffff3867a58 (-52), lit (-0x177f69c3fcb2e) (-102));
    (lit 0x104ffffdfc0d17 (-52), lit 0x17bffe34cb945b (-106)); (lit 0x10700003cd4d82 (-52), lit 0x120083c0e456cb (-107));
    (lit 0x108ffff9f2cbe8 (-52), lit (-0x1dffdfbe37751a) (-109)); (lit 0x10b000010cda65 (-52), lit (-0x113f7faee626eb) (-106));
    (lit 0x10d00001a4d338 (-52), lit 0x107dfa79489ff7 (-107)); (lit 0x10effffadafdfd (-52), lit (-0x17040570d66bc) (-104));
    (lit 0x1110000bbafd96 (-52), lit 0x1e80d4846d0b62 (-107)); (lit 0x112ffffae5f45d (-52), lit 0x1dbffa64fd36ef (-106));
    (lit 0x1150000dd59ad9 (-52), lit 0x1a0077701250ae (-106)); (lit 0x1170000f21559a (-52), lit 0x1dfdf9e2e3deee (-107));
    (lit 0x118ffffc275426 (-52), lit 0x110030dc3b7273 (-106)); (lit 0x11b000123d3c59 (-52), lit 0x197f7980030188 (-106));
    (lit 0x11cffff8299eb7 (-52), lit (-0x15f932ab9f8c67) (-109)); (lit 0x11effff48ad4 (-44), lit 0x137fbf9da75beb (-106));
    (lit 0x1210000c8b86a4 (-52), lit 0x1f806b91fd5b22 (-106)); (lit 0x12300003854303 (-52), lit 0x13ffc2eb9fbf33 (-106));
    (lit 0x124fffffbcf684 (-52), lit 0x1601e77e2e2e72 (-108)); (lit 0x126ffff52921d9 (-52), lit 0x1ffcbb767f0c61 (-108));
    (lit 0x12900014933a3c (-52), lit (-0x1202ca3c02412b) (-108)); (lit 0x12b00014556313 (-52), lit (-0x12808233f21f02) (-106));
    (lit 0x12cfffebfe523b (-52), lit (-0x18ff7e384fdcf2) (-107)); (lit 0x12f0000bb8ad96 (-52), lit (-0x15ff51503041c5) (-107));
    (lit 0x130ffffb7ae2af (-52), lit (-0x110071885e289d) (-107)); (lit 0x132ffffeac5f7f (-52), lit (-0x11ff5d3fb7b715) (-106));
    (lit 0x1350000ca66756 (-52), lit 0x157f82228b82bd (-106)); (lit 0x13700011fbf721 (-52), lit 0x1000bac40dd5cc (-107));
    (lit 0x138ffff9592fb9 (-52), lit (-0x143f9d2db2a751) (-106)); (lit 0x13b00004ddd242 (-52), lit 0x157f6b707638e1 (-107));
    (lit 0x13cffff5b2c957 (-52), lit 0x1a023a10bf1231 (-108)); (lit 0x13efffeab0b418 (-52), lit 0x187f6d66b152b (-102));
    (lit 0x1410001532aff4 (-52), lit 0x17f8375f198524 (-109)); (lit 0x14300017478b29 (-52), lit 0x1301e672dc5143 (-107));
    (lit 0x144fffe795b463 (-52), lit 0x19ff69b8b2895a (-107)); (lit 0x146fffe80475e (-48), lit (-0x15c0b19bc2f254) (-106));
    (lit 0x148fffef6fc1e7 (-52), lit 0x1b4009f23a2a72 (-106)); (lit 0x14afffe5bea704 (-52), lit (-0x14ffb7bf0d7d45) (-106));
    (lit 0x14d000171027de (-52), lit (-0x19c06471dc6a3d) (-106)); (lit 0x14f0000ff03ee2 (-52), lit 0x177f890b85531c (-106));
    (lit 0x15100012dc4bd1 (-52), lit 0x1004657166a436 (-109)); (lit 0x1530001605277a (-52), lit (-0x16bfcece233209) (-106));
    (lit 0x154fffecdb704c (-52), lit (-0x1902720505a1d7) (-107)); (lit 0x156fffef5f54a9 (-52), lit 0x1bbfe60ec96412 (-106));
    (lit 0x15900017e61012 (-52), lit 0x187ec581afef9 (-103)); (lit 0x15b00003c93e92 (-52), lit (-0x1f41080abf0cc) (-102));
    (lit 0x15d0001d4919bc (-52), lit (-0x18812afb254729) (-106)); (lit 0x15efffe7b87a89 (-52), lit (-0x147eb780ed6904) (-106))].

(** log2_data.hpp:65 invln2hi *)
Definition log2d_invln2hi : Z := lit 0x17154765200000 (-52).

(** log2_data.hpp:66 invln2lo *)
Definition log2d_invln2lo : Z := lit 0x1705fc2eefa200 (-85).

(** log2_data.hpp:72-72 poly of log2_data<double> *)
Definition log2d_poly : list Z := [
    lit (-0x171547652b8339) (-53); lit 0x1ec709dc3a04be (-54); lit (-0x17154764702ffb) (-54);
    lit 0x12776c50034c48 (-54); lit (-0x1ec7b328ea92bc) (-55); lit 0x1a6225e117f92e (-55)].

(** log2_data.hpp:78-79 poly1 of log2_data<double> *)
Definition log2d_poly1 : list Z := [
    lit (-0x171547652b82fe) (-53); lit 0x1ec709dc3a03f7 (-54); lit (-0x171547652b7c3f) (-54);
    lit 0x12776c50f05be4 (-54); lit (-0x1ec709dd768fe5) (-55); lit 0x1a61761ec4e736 (-55);
    lit (-0x17153fbc64a79b) (-55); lit 0x1484d154f01b4a (-55); lit (-0x1289e4a72c383c) (-55);
    lit 0x10b32f285aee66 (-55)].

(** log2_data.hpp:89-120 the table (invc, logc) of log2_data<double> *)
Definition log2d_tab : list (Z * Z) := [
    (lit 0x1724286bb1acf8 (-52), lit (-0x11095feecdb000) (-53)); (lit 0x16e1f766d2cca1 (-52), lit (-0x108494bd76d000) (-53));
    (lit 0x16a13d0e30d48a (-52), lit (-0x100143aee8f800) (-53)); (lit 0x1661ec32d06c85 (-52), lit (-0x1efec5360b4000) (-54));
    (lit 0x1623fa951198f8 (-52), lit (-0x1dfdd91ab7e000) (-54)); (lit 0x15e75ba4cf026c (-52), lit (-0x1cffae0cc79000) (-54));
    (lit 0x15ac055a214fb8 (-52), lit (-0x1c043811fda000) (-54)); (lit 0x1571ed0f166e1e (-52), lit (-0x1b0b67323ae000) (-54));
    (lit 0x153909590bf835 (-52), lit (-0x1a152f5a2db000) (-54)); (lit 0x15014fed61addd (-52), lit (-0x19217f5af86000) (-54));
    (lit 0x14cab88e487bd0 (-52), lit (-0x18304db0719000) (-54)); (lit 0x149539b4334fee (-52), lit (-0x174189f9a9e000) (-54));
    (lit 0x1460cbdfafd569 (-52), lit (-0x16552bb5199000) (-54)); (lit 0x142d664ee4b953 (-52), lit (-0x156b23a29b1000) (-54));
    (lit 0x13fb01111dd8a6 (-52), lit (-0x1483650f5fa000) (-54)); (lit 0x13c995b70c5836 (-52), lit (-0x139de937f6a000) (-54));
    (lit 0x13991c4ab6fd4a (-52), lit (-0x12baa1538d6000) (-54)); (lit 0x13698e0ce099b5 (-52), lit (-0x11d98340ca4000) (-54));
    (lit 0x133ae48213e7b2 (-52), lit (-0x10fa853a40e000) (-54)); (lit 0x130d191985bdb1 (-52), lit (-0x101d9c32e73000) (-54));
    (lit 0x12e025cab271d7 (-52), lit (-0x1e857da2fa6000) (-55)); (lit 0x12b404cf13cd82 (-52), lit (-0x1cd3c8633d8000) (-55));
    (lit 0x1288b02c7ccb50 (-52), lit (-0x1b26034c14a000) (-55)); (lit 0x125e2263944de5 (-52), lit (-0x197c1c2f4fe000) (-55));
    (lit 0x1234563d8615b1 (-52), lit (-0x17d6023f800000) (-55)); (lit 0x120b46e33eaf38 (-52), lit (-0x1633a71a05e000) (-55));
    (lit 0x11e2eefdcda3dd (-52), lit (-0x1494f5e9570000) (-55)); (lit 0x11bb4a580b3930 (-52), lit (-0x12f9e424e0a000) (-55));
    (lit 0x119453847f2200 (-52), lit (-0x1162595afdc000) (-55)); (lit 0x116e06c0d5d73c (-52), lit (-0x1f9c9a75bd8000) (-56));
    (lit 0x11485f47b7e4c2 (-52), lit (-0x1c7b575bf9c000) (-56)); (lit 0x112358ad0085d1 (-52), lit (-0x1960c60ff48000) (-56));
    (lit 0x10fef00f532227 (-52), lit (-0x164ce247b60000) (-56)); (lit 0x10db2077d03a8f (-52), lit (-0x133f78b2014000) (-56));
    (lit 0x10b7e6d65980d9 (-52), lit (-0x10387d1a42c000) (-56)); (lit 0x10953efe7b408d (-52), lit (-0x1a6f9208b50000) (-57));
    (lit 0x107325cac53b83 (-52), lit (-0x147a954f770000) (-57)); (lit 0x105197e40d1b5c (-52), lit (-0x1d23a8c50c0000) (-58));
    (lit 0x103091c1208ea2 (-52), lit (-0x116a2629780000) (-58)); (lit 0x10101025b37e21 (-52), lit (-0x1720f8d8e80000) (-60));
    (lit 0x1fc07ef9caa76b (-53), lit 0x16fe53b1500000 (-59)); (lit 0x1f4465d3f6f184 (-53), lit 0x111ccce10f8000 (-57));
    (lit 0x1ecc079f84107f (-53), lit 0x1c4dfc8c8b8000 (-57)); (lit 0x1e573a99975ae8 (-53), lit 0x13aa321e574000 (-56));
    (lit 0x1de5d6f0bd3de6 (-53), lit 0x1918a0d08b8000 (-56)); (lit 0x1d77b681ff38b3 (-53), lit 0x1e72e9da044000 (-56));
    (lit 0x1d0cb5724de943 (-53), lit 0x11dcd2507f6000 (-55)); (lit 0x1ca4b2dc0e7563 (-53), lit 0x1476ab03dea000 (-55));
    (lit 0x1c3f8ee8d6cb51 (-53), lit 0x17074377e22000 (-55)); (lit 0x1bdd2b4f020c4c (-53), lit 0x198ede8ba94000 (-55));
    (lit 0x1b7d6c006015ca (-53), lit 0x1c0db86ad2e000 (-55)); (lit 0x1b20366e2e338f (-53), lit 0x1e840aafcee000 (-55));
    (lit 0x1ac57026295039 (-53), lit 0x10790ab4678000 (-54)); (lit 0x1a6d01bc2731dd (-53), lit 0x11ac056801c000 (-54));
    (lit 0x1a16d3bc3ff18b (-53), lit 0x12db11d4fee000 (-54)); (lit 0x19c2d14967fead (-53), lit 0x1406464ec58000 (-54));
    (lit 0x1970e4f47c9902 (-53), lit 0x152dbe093af000 (-54)); (lit 0x1920fb3982bcf2 (-53), lit 0x1651902050d000 (-54));
    (lit 0x18d30187f759f1 (-53), lit 0x1771d2cdeaf000 (-54)); (lit 0x1886e5ebb9f66d (-53), lit 0x188e9c857d9000 (-54));
    (lit 0x183c97b658b994 (-53), lit 0x19a80155e16000 (-54)); (lit 0x17f405ffc61022 (-53), lit 0x1abe186ed3d000 (-54));
    (lit 0x17ad22181415ca (-53), lit 0x1bd0f2aea0e000 (-54)); (lit 0x1767dcf99eff8c (-53), lit 0x1ce0a43dbf4000 (-54))].

(** log2_data.hpp:130-161 the table (chi, clo) of log2_data<double> *)
Definition log2d_tab2 : list (Z * Z) := [
    (lit 0x16200012b90a8e (-53), lit 0x1904ab0644b605 (-107)); (lit 0x166000045734a6 (-53), lit 0x11ff9bea62f7a9 (-109));
    (lit 0x169fffc325f2c5 (-53), lit 0x127ecfcb3c90ba (-107)); (lit 0x16e00038b95a04 (-53), lit 0x18ff8856739326 (-107));
    (lit 0x171fffe09994e3 (-53), lit 0x1afd40275f82b1 (-107)); (lit 0x17600015590e1 (-49), lit (-0x12fd75b4238341) (-108));
    (lit 0x17a00012655bd5 (-53), lit 0x1808e67c242b76 (-108)); (lit 0x17e0003259e9a6 (-53), lit (-0x1208e426f622b7) (-109));
    (lit 0x181fffedb4b2d2 (-53), lit (-0x1402461ea5c92f) (-107)); (lit 0x1860002dfafcc3 (-53), lit 0x1df7f4a2f29a1f (-109));
    (lit 0x189ffff78c6b5 (-49), lit (-0x1e0453094995fd) (-107)); (lit 0x18e00039671566 (-53), lit (-0x1a04f3bec77b45) (-107));
    (lit 0x191fffe2bf1745 (-53), lit (-0x17fa34400e203c) (-108)); (lit 0x195fffcc5c9fd1 (-53), lit (-0x16ff8005a0695d) (-108));
    (lit 0x19a0003bba4767 (-53), lit 0x10f8c4c4ec7e03 (-108)); (lit 0x19dfffe7b92da5 (-53), lit 0x1e7fd9478c4602 (-107));
    (lit 0x1a1fffd72efdaf (-53), lit (-0x1a0c554dcdae7e) (-109)); (lit 0x1a5fffde04ff95 (-53), lit 0x167da98ce9b26b (-107));
    (lit 0x1a9fffca5e8d2b (-53), lit (-0x1284c9b54c13de) (-107)); (lit 0x1adfffddad03ea (-53), lit 0x1812c8ea602e3c (-110));
    (lit 0x1b1ffff10d3d4d (-53), lit (-0x1efaddad27789c) (-107)); (lit 0x1b5fffce21165a (-53), lit 0x13cb1719c61237 (-110));
    (lit 0x1b9fffd950e674 (-53), lit 0x13f7d94194ce (-100)); (lit 0x1be000139ca8af (-53), lit 0x150ac4215d9bc (-104));
    (lit 0x1c20005b46df99 (-53), lit 0x1beea653e9c1c9 (-109)); (lit 0x1c600040b9f7ae (-53), lit (-0x1c079f274a70d6) (-108));
    (lit 0x1ca0006255fd8a (-53), lit (-0x1a0b4076e84c1f) (-108)); (lit 0x1cdfffd94c095d (-53), lit 0x18f933f99ab5d7 (-107));
    (lit 0x1d1ffff975d6cf (-53), lit (-0x182c08665fe1be) (-110)); (lit 0x1d5fffa2561c93 (-53), lit (-0x1b04289bd295f3) (-108));
    (lit 0x1d9fff9d228b0c (-53), lit 0x170251340fa236 (-107)); (lit 0x1de00065bc7e16 (-53), lit (-0x15011e16a4d80c) (-108));
    (lit 0x1e200002f64791 (-53), lit 0x19802f09ef62e (-103)); (lit 0x1e600057d7a6d8 (-53), lit (-0x1e0b75580cf7fa) (-108));
    (lit 0x1ea00027edc00c (-53), lit (-0x1c848309459811) (-107)); (lit 0x1ee0006cf5cb7c (-53), lit (-0x1f8027951576f4) (-107));
    (lit 0x1f2000782b7dcc (-53), lit (-0x1f81d97274538f) (-107)); (lit 0x1f6000260c450a (-53), lit (-0x1071002727ffdc) (-111));
    (lit 0x1f9fffe88cd533 (-53), lit (-0x181bdce1fda8b) (-106)); (lit 0x1fdfffd50f8689 (-53), lit 0x17f91acb918e6e (-107));
    (lit 0x10200004292367 (-52), lit 0x1b7ff365324681 (-106)); (lit 0x105fffe3e3d668 (-52), lit 0x16fa08ddae957b (-107));
    (lit 0x10a0000a85a757 (-52), lit (-0x17e2de80d3fb91) (-110)); (lit 0x10e0001a5f3fcc (-52), lit (-0x11823305c5f014) (-106));
    (lit 0x111ffff8afbaf5 (-52), lit (-0x1bfabb6680bac2) (-107)); (lit 0x115fffe54d91ad (-52), lit (-0x1d7f121737e7ef) (-106));
    (lit 0x11a00011ac36e1 (-52), lit 0x1c000a0516f5ff (-106)); (lit 0x11e00019c84248 (-52), lit (-0x1082fbe4da5da) (-102));
    (lit 0x1220000ffe5e6e (-52), lit (-0x18fdd04c9cfb43) (-107)); (lit 0x126000269fd891 (-52), lit 0x1cfe2a7994d182 (-107));
    (lit 0x12a00029a6e6da (-52), lit (-0x100273715e8bc5) (-108)); (lit 0x12dfffe0293e39 (-52), lit 0x1b7c39dab2a6f9 (-106));
    (lit 0x131ffff7dcf082 (-52), lit 0x1df1336edc5254 (-108)); (lit 0x135ffff05a8b6 (-48), lit (-0x1e03564ccd31eb) (-106));
    (lit 0x13a0002e0eaecc (-52), lit 0x15f0e74bd3a477 (-108)); (lit 0x13e000043bb236 (-52), lit 0x1c7dcb149d8833 (-106));
    (lit 0x14200002d187ff (-52), lit 0x1e08afcf2d3d28 (-108)); (lit 0x1460000d387cb1 (-52), lit 0x120837856599a6 (-107));
    (lit 0x14a00004569f89 (-52), lit (-0x19fa5c904fbcd2) (-107)); (lit 0x14e000043543f3 (-52), lit (-0x181125ed175329) (-108));
    (lit 0x151fffcc027f0f (-52), lit 0x1883d8847754dc (-106)); (lit 0x155ffffd87b36f (-52), lit (-0x1709e731d02807) (-107));
    (lit 0x159ffff21df7ba (-52), lit 0x17f79f68727b02 (-107)); (lit 0x15dfffebfc3481 (-52), lit (-0x1180902e30e93e) (-106))].
