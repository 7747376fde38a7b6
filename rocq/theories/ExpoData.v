(** * The tables of the exponential and logarithm kernels

    Transcribed from the data headers of math/expo/impl.  A double literal is the pair of its
    integer significand and its binary exponent: 0x1.8p+52 is [lit 0x18 48]. *)
From Coq Require Import ZArith List Bool.
From Verif Require Import Fmt FOps.
Import ListNotations.
Open Scope Z_scope.

(** A double literal m * 2^e (all of them have at most 53 significant bits). *)
Definition lit (m e : Z) : Z := round_int binary64 RNE false m e.
(** A float literal m * 2^e (at most 24 significant bits). *)
Definition litf (m e : Z) : Z := round_int binary32 RNE false m e.

(** exp2_data.hpp:40-44 the table of exp2_data<float> *)
Definition exp2f_tab : list Z := [
    0x3ff0000000000000; 0x3fefd9b0d3158574; 0x3fefb5586cf9890f; 0x3fef9301d0125b51;
    0x3fef72b83c7d517b; 0x3fef54873168b9aa; 0x3fef387a6e756238; 0x3fef1e9df51fdee1;
    0x3fef06fe0a31b715; 0x3feef1a7373aa9cb; 0x3feedea64c123422; 0x3feece086061892d;
    0x3feebfdad5362a27; 0x3feeb42b569d4f82; 0x3feeab07dd485429; 0x3feea47eb03a5585;
    0x3feea09e667f3bcd; 0x3fee9f75e8ec5f74; 0x3feea11473eb0187; 0x3feea589994cce13;
    0x3feeace5422aa0db; 0x3feeb737b0cdc5e5; 0x3feec49182a3f090; 0x3feed503b23e255d;
    0x3feee89f995ad3ad; 0x3feeff76f2fb5e47; 0x3fef199bdd85529c; 0x3fef3720dcef9069;
    0x3fef5818dcfba487; 0x3fef7c97337b9b5f; 0x3fefa4afa2a490da; 0x3fefd0765b6e4540].

(** exp2_data.hpp:34-34 poly of exp2_data<float> *)
Definition exp2f_poly : list Z := [
    lit 0x1c6af84b912394 (-57); lit 0x1ebfce50fac4f3 (-55); lit 0x162e42ff0c52d6 (-53)].

(** exp_data.hpp:39-43 the table of exp_data<float> *)
Definition expf_tab : list Z := [
    0x3ff0000000000000; 0x3fefd9b0d3158574; 0x3fefb5586cf9890f; 0x3fef9301d0125b51;
    0x3fef72b83c7d517b; 0x3fef54873168b9aa; 0x3fef387a6e756238; 0x3fef1e9df51fdee1;
    0x3fef06fe0a31b715; 0x3feef1a7373aa9cb; 0x3feedea64c123422; 0x3feece086061892d;
    0x3feebfdad5362a27; 0x3feeb42b569d4f82; 0x3feeab07dd485429; 0x3feea47eb03a5585;
    0x3feea09e667f3bcd; 0x3fee9f75e8ec5f74; 0x3feea11473eb0187; 0x3feea589994cce13;
    0x3feeace5422aa0db; 0x3feeb737b0cdc5e5; 0x3feec49182a3f090; 0x3feed503b23e255d;
    0x3feee89f995ad3ad; 0x3feeff76f2fb5e47; 0x3fef199bdd85529c; 0x3fef3720dcef9069;
    0x3fef5818dcfba487; 0x3fef7c97337b9b5f; 0x3fefa4afa2a490da; 0x3fefd0765b6e4540].

(** exp_data.hpp:47-49 poly_scaled of exp_data<float>, before the divisions by 1 << 5 *)
Definition expf_poly : list Z := [
    lit 0x1c6af84b912394 (-57); lit 0x1ebfce50fac4f3 (-55); lit 0x162e42ff0c52d6 (-53)].

(** log_data.hpp:41-48 the table (invc, logc) of log_data<float> *)
Definition logf_tab : list (Z * Z) := [
    (lit 0x1661ec79f8f3be (-52), lit (-0x157bf7808caade) (-54)); (lit 0x1571ed4aaf883d (-52), lit (-0x12bef0a7c06ddb) (-54));
    (lit 0x149539f0f010b (-48), lit (-0x101eae7f513a67) (-54)); (lit 0x13c995b0b80385 (-52), lit (-0x1b31d8a68224e9) (-55));
    (lit 0x130d190c8864a5 (-52), lit (-0x16574f0ac07758) (-55)); (lit 0x125e227b0b8ea (-48), lit (-0x11aa2bc79c81) (-47));
    (lit 0x11bb4a4a1a343f (-52), lit (-0x1a4e76ce8c0e5e) (-56)); (lit 0x112358f08ae5ba (-52), lit (-0x11973c5a611ccc) (-56));
    (lit 0x10953f419900a7 (-52), lit (-0x1252f438e10c1e) (-57)); (lit 0x1 0, lit 0x0 0);
    (lit 0x1e608cfd9a47ac (-53), lit 0x1aa5aa5df25984 (-57)); (lit 0x1ca4b31f026aa (-49), lit 0x1c5e53aa362eb4 (-56));
    (lit 0x1b2036576afce6 (-53), lit 0x1526e57720db08 (-55)); (lit 0x19c2d163a1aa2d (-53), lit 0x1bc2860d22477 (-51));
    (lit 0x1886e6037841ed (-53), lit 0x11058bc8a07ee1 (-54)); (lit 0x1767dcf5534862 (-53), lit 0x14043057b6ee09 (-54))].

(** log_data.hpp:55-57 poly of log_data<float> *)
Definition logf_poly : list Z := [
    lit (-0x100ea348b88334) (-54); lit 0x15575b0be00b6a (-54); lit (-0x1ffffef20a4123) (-54)].

(** log2_data.hpp:42-49 the table (invc, logc) of log2_data<float> *)
Definition log2f_tab : list (Z * Z) := [
    (lit 0x1661ec79f8f3be (-52), lit (-0x1efec65b963019) (-54)); (lit 0x1571ed4aaf883d (-52), lit (-0x1b0b6832d4fca4) (-54));
    (lit 0x149539f0f010b (-48), lit (-0x17418b0a1fb77b) (-54)); (lit 0x13c995b0b80385 (-52), lit (-0x139de91a6dcf7b) (-54));
    (lit 0x130d190c8864a5 (-52), lit (-0x101d9bf3f2b631) (-54)); (lit 0x125e227b0b8ea (-48), lit (-0x197c1d1b3b7af) (-51));
    (lit 0x11bb4a4a1a343f (-52), lit (-0x12f9e393af3c9f) (-55)); (lit 0x112358f08ae5ba (-52), lit (-0x1960cbbf788d5c) (-56));
    (lit 0x10953f419900a7 (-52), lit (-0x1a6f9db6475fce) (-57)); (lit 0x1 0, lit 0x0 0);
    (lit 0x1e608cfd9a47ac (-53), lit 0x1338ca9f24f53d (-56)); (lit 0x1ca4b31f026aa (-49), lit 0x1476a9543891ba (-55));
    (lit 0x1b2036576afce6 (-53), lit 0x1e840b4ac4e4d2 (-55)); (lit 0x19c2d163a1aa2d (-53), lit 0x140645f0c6651c (-54));
    (lit 0x1886e6037841ed (-53), lit 0x188e9c2c1b9ff8 (-54)); (lit 0x1767dcf5534862 (-53), lit 0x1ce0a44eb17bcc (-54))].

(** log2_data.hpp:53-56 poly of log2_data<float> *)
Definition log2f_poly : list Z := [
    lit (-0x1712b6f70a7e4d) (-54); lit 0x1ecabf496832e (-50); lit (-0x1715479ffae3de) (-53);
    lit 0x1715475f35c8b8 (-52)].
