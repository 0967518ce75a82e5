(** * Constant tables of src/faddeeva.rs, copied from the source by script *)

From Coq Require Import ZArith List.
From Verif.Model Require Import Base.
Import ListNotations.

(** src/faddeeva.rs:314-524 [TILES], 5000 entries, digits as in the source *)
Definition TILES : list Z := [
  -2; -2; 3; 18; 3; 15; 3; 19; 13; 20; 13; 17; 13; 14; 13; 17; 13; 23; 29; 20; 29; 18; 29; 15;
  29; 13; 29; 15; 29; 18; 29; 23; 38; 17; 38; 15; 38; 13; 38; 13; 38; 15; 38; 18; 38; 20; 38; 23;
  48; 20; 48; 18; 48; 16; 48; 15; 48; 13; 48; 11; 48; 13; 48; 15; 48; 17; 48; 19; 48; 21; 48; 23;
  58; 19; 58; 18; 58; 16; 58; 15; 58; 13; 58; 12; 58; 10; 58; 12; 58; 13; 58; 15; 58; 16; 58; 18;
  58; 19; -2; -2; 1; 16; 0; 15; 0; 15; 8; 18; 8; 18; 13; 19; 13; 18; 13; 20; 21; 19; 21; 20;
  29; 19; 29; 17; 29; 16; 29; 18; 29; 20; 38; 21; 38; 19; 38; 17; 38; 15; 38; 15; 38; 17; 38; 19;
  38; 21; 48; 22; 48; 20; 48; 19; 48; 17; 48; 16; 48; 14; 48; 13; 48; 14; 48; 16; 48; 17; 48; 19;
  48; 21; 48; 23; 58; 19; 58; 18; 58; 17; 58; 15; 58; 14; 58; 13; 58; 12; 58; 13; 58; 14; 58; 15;
  58; 17; 58; 18; 58; 20; -2; -2; 4; 16; 0; 19; 0; 23; 8; 15; 8; 15; 15; 18; 15; 16; 15; 18;
  21; 16; 21; 16; 21; 19; 29; 20; 29; 19; 29; 20; 29; 23; 30; 19; 38; 20; 38; 19; 38; 18; 38; 18;
  38; 19; 38; 21; 38; 23; 46; 22; 46; 22; 48; 20; 48; 18; 48; 17; 48; 16; 48; 15; 48; 16; 48; 17;
  48; 18; 48; 20; 48; 22; 58; 21; 58; 20; 58; 18; 58; 17; 58; 16; 58; 15; 58; 14; 58; 14; 58; 14;
  58; 15; 58; 16; 58; 17; 58; 19; 58; 20; -2; -2; 5; 16; 2; 16; 2; 17; 8; 18; 8; 19; 15; 16;
  15; 12; 15; 16; 21; 14; 21; 14; 21; 17; 30; 19; 30; 17; 30; 15; 30; 15; 30; 17; 30; 21; 38; 21;
  38; 20; 38; 20; 38; 21; 38; 23; 46; 20; 46; 20; 46; 20; 46; 20; 48; 20; 48; 18; 48; 18; 48; 17;
  48; 18; 48; 19; 48; 20; 48; 21; 48; 23; 58; 22; 58; 20; 58; 19; 58; 18; 58; 17; 58; 16; 58; 16;
  58; 15; 58; 16; 58; 16; 58; 17; 58; 18; 58; 20; 58; 21; -2; -2; 6; 16; 2; 16; 2; 17; 11; 17;
  11; 18; 15; 18; 15; 16; 15; 19; 21; 16; 21; 16; 21; 20; 30; 18; 30; 16; 30; 13; 30; 13; 30; 16;
  30; 19; 41; 21; 38; 22; 38; 23; 41; 18; 41; 20; 46; 18; 46; 17; 46; 18; 46; 18; 46; 20; 46; 22;
  48; 19; 48; 19; 48; 20; 48; 20; 48; 21; 48; 23; 53; 22; 53; 22; 58; 21; 58; 20; 58; 19; 58; 18;
  58; 18; 58; 17; 58; 17; 58; 17; 58; 18; 58; 18; 58; 19; 58; 20; 58; 22; -2; -2; 9; 16; 7; 16;
  7; 17; 11; 14; 11; 15; 19; 18; 19; 16; 19; 18; 21; 20; 21; 23; 26; 19; 30; 19; 30; 17; 30; 15;
  30; 15; 30; 17; 30; 23; 41; 19; 41; 17; 41; 16; 41; 16; 41; 17; 46; 17; 46; 15; 46; 15; 46; 17;
  46; 18; 46; 20; 46; 23; 48; 21; 48; 21; 48; 22; 48; 23; 53; 20; 53; 20; 53; 20; 53; 21; 53; 22;
  58; 20; 58; 19; 58; 19; 58; 18; 58; 18; 58; 19; 58; 19; 58; 20; 58; 21; 58; 22; 58; 23; -2; -2;
  12; 16; 7; 16; 7; 17; 11; 18; 11; 18; 19; 16; 19; 12; 19; 16; 26; 18; 26; 16; 26; 16; 26; 18;
  30; 19; 30; 18; 30; 18; 35; 17; 35; 17; 35; 18; 41; 16; 41; 14; 41; 14; 41; 16; 46; 15; 46; 13;
  46; 13; 46; 15; 46; 17; 46; 19; 46; 23; 48; 23; 53; 20; 53; 19; 53; 19; 53; 18; 53; 18; 53; 19;
  53; 20; 53; 21; 53; 22; 58; 21; 58; 20; 58; 20; 58; 20; 58; 20; 58; 20; 58; 21; 58; 22; 58; 23;
  62; 19; -2; -2; 14; 16; 10; 18; 10; 18; 16; 17; 16; 17; 19; 18; 19; 16; 19; 18; 26; 17; 26; 13;
  26; 13; 26; 17; 26; 23; 35; 19; 35; 16; 35; 14; 35; 15; 35; 17; 41; 15; 41; 12; 41; 12; 41; 15;
  46; 14; 46; 12; 46; 12; 46; 14; 46; 16; 46; 19; 46; 22; 53; 20; 53; 19; 53; 18; 53; 17; 53; 17;
  53; 17; 53; 17; 53; 18; 53; 19; 53; 21; 62; 19; 58; 22; 58; 21; 58; 21; 58; 21; 58; 22; 58; 22;
  58; 23; 62; 17; 62; 18; -2; -2; 17; 16; 10; 15; 10; 15; 16; 14; 16; 14; 16; 23; 23; 19; 23; 20;
  26; 18; 26; 16; 26; 16; 26; 18; 35; 20; 35; 18; 35; 15; 35; 12; 35; 12; 35; 15; 41; 16; 41; 14;
  41; 14; 41; 16; 46; 15; 46; 13; 46; 13; 46; 15; 46; 17; 46; 19; 46; 23; 53; 19; 53; 18; 53; 17;
  53; 16; 53; 15; 53; 15; 53; 16; 53; 17; 53; 18; 53; 20; 62; 18; 58; 23; 58; 23; 58; 23; 58; 23;
  58; 23; 62; 14; 62; 15; 62; 16; 62; 17; -2; -2; 18; 17; 10; 19; 10; 23; 16; 17; 16; 18; 23; 19;
  23; 16; 23; 16; 23; 19; 26; 19; 26; 19; 33; 18; 33; 20; 35; 19; 35; 16; 35; 15; 35; 15; 35; 17;
  41; 17; 41; 16; 41; 16; 41; 18; 46; 17; 46; 15; 46; 15; 46; 17; 46; 18; 46; 20; 46; 23; 53; 19;
  53; 17; 53; 16; 53; 14; 53; 13; 53; 13; 53; 14; 53; 16; 53; 17; 53; 19; 62; 17; 62; 16; 62; 15;
  62; 14; 62; 13; 62; 12; 62; 13; 62; 14; 62; 15; 62; 16; -2; -2; 18; 18; 20; 18; 20; 15; 20; 18;
  25; 19; 23; 17; 23; 14; 23; 14; 23; 17; 33; 17; 33; 15; 33; 15; 33; 18; 33; 21; 35; 18; 35; 17;
  35; 17; 35; 19; 35; 23; 41; 19; 41; 19; 41; 20; 46; 18; 46; 18; 46; 18; 46; 19; 46; 20; 46; 23;
  53; 20; 53; 18; 53; 16; 53; 15; 53; 13; 53; 11; 53; 11; 53; 13; 53; 15; 53; 17; 53; 18; 62; 17;
  62; 16; 62; 14; 62; 13; 62; 11; 62; 10; 62; 11; 62; 13; 62; 15; -2; -2; -2; -2; 22; 17; 20; 18;
  20; 15; 20; 18; 25; 17; 25; 14; 23; 16; 23; 16; 23; 20; 33; 16; 33; 13; 33; 13; 33; 16; 33; 20;
  39; 20; 35; 20; 35; 20; 35; 23; 44; 21; 41; 21; 41; 21; 46; 21; 46; 20; 46; 20; 46; 20; 46; 21;
  46; 23; 53; 21; 53; 20; 53; 18; 53; 16; 53; 15; 53; 13; 53; 11; 53; 11; 53; 13; 53; 15; 53; 17;
  53; 18; 62; 17; 62; 16; 62; 14; 62; 13; 62; 11; 62; 10; 62; 11; 62; 13; 62; 15; -2; -2; -2; -2;
  22; 17; 24; 17; 24; 14; 24; 18; 25; 17; 25; 14; 25; 17; 23; 23; 33; 20; 33; 18; 33; 15; 33; 15;
  33; 18; 39; 17; 39; 17; 39; 19; 39; 21; 44; 20; 44; 19; 44; 19; 44; 20; 44; 22; 49; 21; 49; 20;
  49; 20; 49; 19; 49; 20; 49; 21; 49; 22; 53; 19; 53; 17; 53; 16; 53; 14; 53; 13; 53; 13; 53; 14;
  53; 16; 53; 17; 53; 19; 62; 18; 62; 16; 62; 15; 62; 14; 62; 13; 62; 12; 62; 13; 62; 14; 62; 15;
  -2; -2; -2; -2; 27; 18; 24; 17; 24; 15; 24; 18; 25; 20; 25; 18; 25; 23; 31; 18; 31; 19; 33; 20;
  33; 18; 33; 18; 39; 16; 39; 15; 39; 15; 39; 17; 39; 19; 44; 18; 44; 17; 44; 17; 44; 18; 44; 20;
  44; 22; 49; 19; 49; 18; 49; 18; 49; 18; 49; 19; 49; 20; 53; 19; 53; 18; 53; 17; 53; 16; 53; 15;
  53; 15; 53; 16; 53; 17; 53; 18; 53; 20; 62; 18; 62; 17; 62; 16; 62; 15; 62; 14; 62; 14; 62; 14;
  62; 15; 62; 16; -2; -2; -2; -2; 27; 15; 28; 20; 28; 17; 28; 17; 28; 20; 31; 19; 31; 17; 31; 15;
  31; 17; 31; 20; 39; 21; 39; 18; 39; 15; 39; 12; 39; 12; 39; 15; 39; 18; 44; 16; 44; 15; 44; 15;
  44; 16; 44; 18; 44; 20; 49; 17; 49; 16; 49; 16; 49; 16; 49; 17; 49; 19; 49; 21; 53; 19; 53; 18;
  53; 17; 53; 17; 53; 17; 53; 17; 53; 18; 53; 19; 53; 21; 62; 19; 62; 18; 62; 17; 62; 16; 62; 15;
  62; 15; 62; 15; 62; 16; -2; -2; -2; -2; -2; -2; 27; 19; 28; 18; 28; 14; 28; 14; 28; 18; 31; 18;
  31; 15; 31; 12; 31; 15; 31; 18; 36; 20; 39; 19; 39; 17; 39; 15; 39; 15; 39; 17; 44; 17; 44; 15;
  44; 13; 44; 13; 44; 15; 44; 17; 49; 17; 49; 16; 49; 14; 49; 13; 49; 14; 49; 16; 49; 18; 49; 20;
  49; 22; 53; 19; 53; 19; 53; 18; 53; 18; 53; 19; 53; 20; 53; 21; 53; 23; 62; 20; 62; 19; 62; 18;
  62; 17; 62; 17; 62; 16; 62; 17; 62; 17; -2; -2; -2; -2; -2; -2; 32; 21; 28; 20; 28; 17; 28; 17;
  28; 21; 31; 20; 31; 17; 31; 15; 31; 17; 36; 18; 36; 18; 36; 19; 39; 19; 39; 17; 39; 17; 39; 19;
  44; 17; 44; 15; 44; 13; 44; 13; 44; 15; 44; 17; 49; 17; 49; 15; 49; 13; 49; 11; 49; 13; 49; 15;
  49; 17; 49; 19; 49; 21; 53; 21; 53; 20; 53; 20; 53; 20; 53; 21; 53; 22; 53; 23; 57; 20; 57; 21;
  62; 20; 62; 19; 62; 19; 62; 18; 62; 18; 62; 18; 62; 19; -2; -2; -2; -2; -2; -2; 32; 17; 32; 20;
  34; 21; 34; 19; 34; 19; 34; 21; 31; 20; 31; 19; 36; 17; 36; 15; 36; 15; 36; 17; 36; 20; 39; 20;
  39; 20; 39; 23; 44; 18; 44; 16; 44; 15; 44; 15; 44; 16; 44; 18; 49; 17; 49; 15; 49; 13; 49; 11;
  49; 13; 49; 15; 49; 17; 49; 19; 49; 21; 57; 22; 53; 22; 53; 22; 57; 19; 57; 19; 57; 19; 57; 19;
  57; 19; 57; 20; 57; 20; 57; 21; 62; 20; 62; 20; 62; 19; 62; 20; -2; -2; -2; -2; -2; -2; -2; -2;
  32; 15; 32; 19; 34; 19; 34; 16; 34; 16; 34; 19; 36; 21; 36; 19; 36; 16; 36; 13; 36; 13; 36; 16;
  36; 19; 36; 22; 47; 22; 47; 21; 44; 20; 44; 18; 44; 17; 44; 17; 44; 18; 44; 20; 49; 18; 49; 16;
  49; 14; 49; 14; 49; 14; 49; 16; 49; 18; 49; 20; 49; 22; 57; 21; 57; 20; 57; 19; 57; 18; 57; 17;
  57; 17; 57; 17; 57; 18; 57; 18; 57; 19; 57; 20; 57; 21; 62; 21; 62; 21; 62; 21; -2; -2; -2; -2;
  -2; -2; -2; -2; 32; 18; 32; 21; 34; 17; 34; 14; 34; 14; 34; 17; 34; 21; 36; 20; 36; 17; 36; 15;
  36; 15; 36; 17; 36; 20; 42; 20; 42; 22; 47; 19; 47; 18; 47; 18; 47; 19; 44; 20; 44; 21; 44; 23;
  49; 19; 49; 17; 49; 16; 49; 16; 49; 16; 49; 17; 49; 19; 49; 21; 49; 23; 57; 20; 57; 19; 57; 18;
  57; 17; 57; 16; 57; 16; 57; 16; 57; 16; 57; 17; 57; 18; 57; 19; 57; 21; 57; 22; 62; 23; 62; 23;
  -2; -2; -2; -2; -2; -2; -2; -2; 32; 22; 37; 22; 34; 19; 34; 16; 34; 16; 34; 19; 40; 22; 36; 21;
  36; 19; 36; 18; 36; 18; 42; 17; 42; 17; 42; 18; 42; 20; 47; 17; 47; 16; 47; 16; 47; 17; 47; 19;
  47; 21; 49; 22; 49; 20; 49; 19; 49; 18; 49; 18; 49; 18; 49; 19; 49; 21; 49; 23; 57; 21; 57; 19;
  57; 18; 57; 17; 57; 16; 57; 15; 57; 14; 57; 14; 57; 15; 57; 16; 57; 17; 57; 18; 57; 20; 57; 21;
  57; 23; -2; -2; -2; -2; -2; -2; -2; -2; -2; -2; 37; 17; 37; 19; 34; 22; 34; 20; 34; 20; 40; 18;
  40; 20; 40; 22; 36; 22; 42; 18; 42; 16; 42; 14; 42; 14; 42; 16; 42; 19; 47; 15; 47; 14; 47; 14;
  47; 15; 47; 17; 47; 20; 47; 22; 49; 22; 49; 21; 49; 20; 49; 20; 49; 20; 49; 21; 49; 23; 57; 22;
  57; 20; 57; 19; 57; 17; 57; 16; 57; 15; 57; 14; 57; 13; 57; 13; 57; 14; 57; 15; 57; 16; 57; 18;
  57; 19; 57; 21; 57; 23; -2; -2; -2; -2; -2; -2; -2; -2; -2; -2; 37; 14; 37; 18; 37; 22; 40; 18;
  40; 15; 40; 15; 40; 18; 40; 20; 42; 20; 42; 18; 42; 15; 42; 12; 42; 12; 42; 15; 42; 18; 47; 14;
  47; 12; 47; 12; 47; 14; 47; 17; 47; 19; 47; 22; 54; 21; 54; 20; 54; 20; 54; 19; 54; 19; 54; 20;
  54; 21; 54; 22; 57; 20; 57; 18; 57; 17; 57; 16; 57; 14; 57; 13; 57; 11; 57; 11; 57; 13; 57; 14;
  57; 16; 57; 17; 57; 19; 57; 20; -2; -2; -2; -2; -2; -2; -2; -2; -2; -2; -2; -2; 37; 17; 37; 20;
  37; 23; 40; 16; 40; 13; 40; 13; 40; 16; 40; 19; 40; 23; 42; 18; 42; 16; 42; 14; 42; 14; 42; 16;
  42; 19; 47; 15; 47; 14; 47; 14; 47; 15; 47; 17; 47; 20; 47; 22; 54; 20; 54; 19; 54; 18; 54; 18;
  54; 18; 54; 18; 54; 19; 54; 20; 54; 22; 57; 18; 57; 17; 57; 16; 57; 14; 57; 13; 57; 11; 57; 11;
  57; 13; 57; 14; 57; 16; 57; 17; 57; 19; 57; 20; -2; -2; -2; -2; -2; -2; -2; -2; -2; -2; -2; -2;
  37; 20; 37; 23; 40; 20; 40; 18; 40; 15; 40; 15; 40; 18; 40; 21; 42; 22; 42; 20; 42; 18; 42; 17;
  42; 17; 42; 18; 42; 20; 47; 17; 47; 16; 47; 16; 47; 17; 47; 19; 47; 21; 54; 20; 54; 19; 54; 18;
  54; 17; 54; 16; 54; 16; 54; 17; 54; 18; 54; 19; 54; 21; 57; 19; 57; 17; 57; 16; 57; 15; 57; 14;
  57; 13; 57; 13; 57; 14; 57; 15; 57; 16; 57; 18; 57; 19; -2; -2; -2; -2; -2; -2; -2; -2; -2; -2;
  -2; -2; -2; -2; 43; 22; 43; 23; 40; 22; 40; 20; 40; 18; 40; 18; 40; 20; 40; 23; 45; 21; 42; 22;
  42; 21; 42; 19; 42; 19; 42; 21; 42; 23; 47; 19; 47; 18; 47; 18; 47; 19; 47; 21; 47; 23; 54; 19;
  54; 18; 54; 16; 54; 15; 54; 14; 54; 14; 54; 15; 54; 16; 54; 18; 54; 20; 54; 21; 57; 18; 57; 17;
  57; 16; 57; 15; 57; 14; 57; 14; 57; 15; 57; 16; 57; 17; 57; 18; 57; 20; -2; -2; -2; -2; -2; -2;
  -2; -2; -2; -2; -2; -2; -2; -2; 43; 19; 43; 20; 43; 23; 40; 23; 40; 22; 40; 22; 45; 18; 45; 18;
  45; 18; 45; 20; 45; 22; 42; 23; 42; 23; 51; 22; 47; 23; 47; 21; 47; 21; 47; 21; 47; 22; 47; 23;
  54; 20; 54; 19; 54; 17; 54; 15; 54; 14; 54; 12; 54; 12; 54; 14; 54; 15; 54; 17; 54; 19; 54; 21;
  57; 19; 57; 18; 57; 17; 57; 16; 57; 16; 57; 16; 57; 16; 57; 17; 57; 18; 57; 19; -2; -2; -2; -2;
  -2; -2; -2; -2; -2; -2; -2; -2; -2; -2; -2; -2; 43; 16; 43; 18; 43; 21; 45; 23; 45; 20; 45; 18;
  45; 16; 45; 15; 45; 16; 45; 18; 45; 20; 45; 23; 51; 21; 51; 20; 51; 19; 51; 19; 51; 20; 51; 21;
  51; 22; 54; 22; 54; 20; 54; 18; 54; 17; 54; 15; 54; 13; 54; 11; 54; 11; 54; 13; 54; 15; 54; 17;
  54; 19; 54; 21; 57; 20; 57; 19; 57; 18; 57; 18; 57; 17; 57; 17; 57; 18; 57; 18; 57; 19; -2; -2;
  -2; -2; -2; -2; -2; -2; -2; -2; -2; -2; -2; -2; -2; -2; -2; -2; 43; 13; 43; 17; 43; 20; 43; 23;
  45; 19; 45; 17; 45; 14; 45; 12; 45; 14; 45; 17; 45; 19; 45; 22; 51; 19; 51; 18; 51; 17; 51; 17;
  51; 18; 51; 19; 51; 21; 51; 23; 54; 20; 54; 19; 54; 17; 54; 15; 54; 14; 54; 12; 54; 12; 54; 14;
  54; 15; 54; 17; 54; 19; 54; 21; 54; 23; 57; 20; 57; 20; 57; 19; 57; 19; 57; 19; 57; 19; 57; 20;
  57; 21; -2; -2; -2; -2; -2; -2; -2; -2; -2; -2; -2; -2; -2; -2; -2; -2; -2; -2; 43; 16; 43; 18;
  43; 21; 45; 22; 45; 19; 45; 17; 45; 14; 45; 12; 45; 14; 45; 17; 45; 19; 45; 22; 51; 18; 51; 16;
  51; 15; 51; 15; 51; 16; 51; 18; 51; 19; 51; 21; 54; 21; 54; 19; 54; 18; 54; 16; 54; 15; 54; 14;
  54; 14; 54; 15; 54; 16; 54; 18; 54; 20; 54; 22; 61; 21; 57; 22; 57; 21; 57; 21; 57; 20; 57; 20;
  57; 21; 57; 21; -2; -2; -2; -2; -2; -2; -2; -2; -2; -2; -2; -2; -2; -2; -2; -2; -2; -2; -2; -2;
  43; 19; 43; 21; 43; 23; 45; 23; 45; 20; 45; 18; 45; 16; 45; 15; 45; 16; 45; 18; 45; 21; 51; 18;
  51; 16; 51; 15; 51; 13; 51; 13; 51; 15; 51; 17; 51; 19; 51; 21; 51; 23; 54; 20; 54; 19; 54; 18;
  54; 17; 54; 16; 54; 16; 54; 17; 54; 18; 54; 19; 54; 21; 61; 19; 61; 19; 61; 20; 61; 21; 61; 21;
  57; 22; 57; 22; 57; 23; -2; -2; -2; -2; -2; -2; -2; -2; -2; -2; -2; -2; -2; -2; -2; -2; -2; -2;
  -2; -2; -2; -2; 50; 16; 50; 18; 50; 20; 50; 23; 45; 22; 45; 20; 45; 19; 45; 18; 45; 19; 45; 20;
  45; 22; 51; 18; 51; 16; 51; 14; 51; 11; 51; 11; 51; 14; 51; 16; 51; 18; 51; 20; 51; 23; 54; 22;
  54; 20; 54; 19; 54; 18; 54; 18; 54; 18; 54; 18; 54; 19; 61; 18; 61; 17; 61; 17; 61; 18; 61; 19;
  61; 19; 61; 20; 61; 21; 61; 23; -2; -2; -2; -2; -2; -2; -2; -2; -2; -2; -2; -2; -2; -2; -2; -2;
  -2; -2; -2; -2; -2; -2; -2; -2; 50; 13; 50; 16; 50; 19; 50; 22; 52; 22; 45; 23; 45; 21; 45; 21;
  45; 21; 45; 23; 51; 21; 51; 18; 51; 17; 51; 15; 51; 13; 51; 13; 51; 15; 51; 17; 51; 19; 51; 21;
  51; 23; 56; 23; 54; 22; 54; 21; 54; 20; 54; 20; 54; 20; 54; 20; 61; 17; 61; 16; 61; 16; 61; 16;
  61; 17; 61; 17; 61; 18; 61; 19; 61; 20; 61; 22; -2; -2; -2; -2; -2; -2; -2; -2; -2; -2; -2; -2;
  -2; -2; -2; -2; -2; -2; -2; -2; -2; -2; -2; -2; 50; 13; 50; 16; 50; 19; 50; 22; 52; 20; 52; 19;
  52; 18; 52; 17; 52; 18; 52; 19; 52; 21; 51; 19; 51; 18; 51; 16; 51; 15; 51; 15; 51; 16; 51; 18;
  51; 20; 51; 22; 56; 20; 56; 21; 56; 22; 54; 23; 54; 22; 54; 22; 61; 18; 61; 17; 61; 16; 61; 15;
  61; 15; 61; 15; 61; 15; 61; 16; 61; 17; 61; 18; 61; 20; -2; -2; -2; -2; -2; -2; -2; -2; -2; -2;
  -2; -2; -2; -2; -2; -2; -2; -2; -2; -2; -2; -2; -2; -2; -2; -2; 50; 16; 50; 18; 50; 20; 50; 23;
  52; 19; 52; 17; 52; 16; 52; 15; 52; 16; 52; 17; 52; 19; 52; 21; 51; 19; 51; 18; 51; 17; 51; 17;
  51; 18; 51; 19; 56; 18; 56; 18; 56; 19; 56; 19; 56; 20; 56; 22; 61; 20; 61; 19; 61; 17; 61; 16;
  61; 15; 61; 14; 61; 13; 61; 13; 61; 14; 61; 15; 61; 16; 61; 18; -2; -2; -2; -2; -2; -2; -2; -2;
  -2; -2; -2; -2; -2; -2; -2; -2; -2; -2; -2; -2; -2; -2; -2; -2; -2; -2; -2; -2; 50; 19; 50; 20;
  50; 22; 52; 20; 52; 18; 52; 16; 52; 14; 52; 12; 52; 14; 52; 16; 52; 18; 52; 20; 51; 21; 51; 20;
  51; 19; 51; 19; 51; 20; 56; 17; 56; 16; 56; 16; 56; 17; 56; 18; 56; 19; 56; 20; 56; 22; 61; 18;
  61; 17; 61; 16; 61; 14; 61; 13; 61; 12; 61; 12; 61; 13; 61; 14; 61; 16; -2; -2; -2; -2; -2; -2;
  -2; -2; -2; -2; -2; -2; -2; -2; -2; -2; -2; -2; -2; -2; -2; -2; -2; -2; -2; -2; -2; -2; -2; -2;
  50; 22; 50; 23; 55; 22; 52; 20; 52; 17; 52; 15; 52; 13; 52; 10; 52; 13; 52; 15; 52; 17; 52; 20;
  52; 22; 51; 22; 51; 22; 56; 18; 56; 17; 56; 15; 56; 15; 56; 15; 56; 15; 56; 17; 56; 18; 56; 19;
  56; 21; 61; 18; 61; 17; 61; 15; 61; 14; 61; 12; 61; 10; 61; 10; 61; 12; 61; 14; -2; -2; -2; -2;
  -2; -2; -2; -2; -2; -2; -2; -2; -2; -2; -2; -2; -2; -2; -2; -2; -2; -2; -2; -2; -2; -2; -2; -2;
  -2; -2; -2; -2; 55; 17; 55; 18; 55; 20; 52; 20; 52; 18; 52; 16; 52; 14; 52; 13; 52; 14; 52; 16;
  52; 18; 52; 20; 52; 23; 56; 20; 56; 19; 56; 17; 56; 15; 56; 14; 56; 13; 56; 13; 56; 14; 56; 16;
  56; 17; 56; 19; 56; 20; 61; 18; 61; 17; 61; 16; 61; 14; 61; 13; 61; 12; 61; 12; 61; 13; -2; -2;
  -2; -2; -2; -2; -2; -2; -2; -2; -2; -2; -2; -2; -2; -2; -2; -2; -2; -2; -2; -2; -2; -2; -2; -2;
  -2; -2; -2; -2; -2; -2; -2; -2; 55; 15; 55; 16; 55; 18; 55; 20; 52; 19; 52; 17; 52; 16; 52; 15;
  52; 16; 52; 17; 52; 19; 52; 21; 56; 22; 56; 20; 56; 18; 56; 16; 56; 15; 56; 13; 56; 11; 56; 11;
  56; 13; 56; 15; 56; 16; 56; 18; 56; 20; 61; 19; 61; 18; 61; 16; 61; 15; 61; 14; 61; 13; -2; -2;
  -2; -2; -2; -2; -2; -2; -2; -2; -2; -2; -2; -2; -2; -2; -2; -2; -2; -2; -2; -2; -2; -2; -2; -2;
  -2; -2; -2; -2; -2; -2; -2; -2; -2; -2; -2; -2; 55; 13; 55; 15; 55; 17; 55; 19; 52; 21; 52; 19;
  52; 18; 52; 17; 52; 18; 52; 19; 52; 21; 52; 23; 56; 22; 56; 20; 56; 18; 56; 16; 56; 15; 56; 13;
  56; 11; 56; 11; 56; 13; 56; 15; 56; 16; 56; 18; 56; 20; 61; 20; 61; 18; 61; 17; 61; 16; 61; 15;
  -2; -2; -2; -2; -2; -2; -2; -2; -2; -2; -2; -2; -2; -2; -2; -2; -2; -2; -2; -2; -2; -2; -2; -2;
  -2; -2; -2; -2; -2; -2; -2; -2; -2; -2; -2; -2; -2; -2; -2; -2; 55; 11; 55; 13; 55; 16; 55; 19;
  55; 21; 52; 21; 52; 20; 52; 20; 52; 20; 52; 21; 52; 23; 59; 20; 59; 21; 56; 20; 56; 19; 56; 17;
  56; 16; 56; 14; 56; 13; 56; 13; 56; 14; 56; 16; 56; 17; 56; 19; 56; 21; 56; 22; 61; 19; 61; 18;
  61; 17; -2; -2; -2; -2; -2; -2; -2; -2; -2; -2; -2; -2; -2; -2; -2; -2; -2; -2; -2; -2; -2; -2;
  -2; -2; -2; -2; -2; -2; -2; -2; -2; -2; -2; -2; -2; -2; -2; -2; -2; -2; -2; -2; 55; 13; 55; 15;
  55; 17; 55; 19; 55; 22; 59; 21; 52; 23; 59; 19; 59; 18; 59; 18; 59; 18; 59; 19; 59; 20; 59; 21;
  56; 19; 56; 18; 56; 17; 56; 16; 56; 15; 56; 15; 56; 16; 56; 17; 56; 18; 56; 20; 56; 21; 56; 23;
  61; 20; -2; -2; -2; -2; -2; -2; -2; -2; -2; -2; -2; -2; -2; -2; -2; -2; -2; -2; -2; -2; -2; -2;
  -2; -2; -2; -2; -2; -2; -2; -2; -2; -2; -2; -2; -2; -2; -2; -2; -2; -2; -2; -2; -2; -2; -2; -2;
  60; 13; 60; 14; 60; 16; 60; 18; 60; 20; 59; 20; 59; 18; 59; 17; 59; 16; 59; 16; 59; 16; 59; 17;
  59; 18; 59; 20; 56; 21; 56; 19; 56; 18; 56; 17; 56; 16; 56; 16; 56; 17; 56; 18; 56; 19; 56; 21;
  56; 22; 61; 23; -2; -2; -2; -2; -2; -2; -2; -2; -2; -2; -2; -2; -2; -2; -2; -2; -2; -2; -2; -2;
  -2; -2; -2; -2; -2; -2; -2; -2; -2; -2; -2; -2; -2; -2; -2; -2; -2; -2; -2; -2; -2; -2; -2; -2;
  -2; -2; -2; -2; 60; 11; 60; 13; 60; 15; 60; 17; 60; 20; 59; 18; 59; 17; 59; 16; 59; 15; 59; 14;
  59; 15; 59; 16; 59; 17; 59; 19; 59; 20; 56; 21; 56; 20; 56; 19; 56; 18; 56; 18; 56; 19; 56; 20;
  56; 21; 56; 22; -2; -2; -2; -2; -2; -2; -2; -2; -2; -2; -2; -2; -2; -2; -2; -2; -2; -2; -2; -2;
  -2; -2; -2; -2; -2; -2; -2; -2; -2; -2; -2; -2; -2; -2; -2; -2; -2; -2; -2; -2; -2; -2; -2; -2;
  -2; -2; -2; -2; -2; -2; -2; -2; 60; 11; 60; 13; 60; 15; 60; 17; 60; 20; 59; 18; 59; 16; 59; 15;
  59; 13; 59; 12; 59; 13; 59; 15; 59; 16; 59; 18; 59; 19; 59; 21; 56; 21; 56; 21; 56; 20; 56; 20;
  56; 21; 56; 21; -2; -2; -2; -2; -2; -2; -2; -2; -2; -2; -2; -2; -2; -2; -2; -2; -2; -2; -2; -2;
  -2; -2; -2; -2; -2; -2; -2; -2; -2; -2; -2; -2; -2; -2; -2; -2; -2; -2; -2; -2; -2; -2; -2; -2;
  -2; -2; -2; -2; -2; -2; -2; -2; -2; -2; -2; -2; 60; 13; 60; 15; 60; 16; 60; 18; 60; 20; 59; 17;
  59; 15; 59; 14; 59; 12; 59; 10; 59; 12; 59; 14; 59; 15; 59; 17; 59; 19; 59; 21; 56; 23; 56; 23;
  56; 22; 56; 22; -2; -2; -2; -2; -2; -2; -2; -2; -2; -2; -2; -2; -2; -2; -2; -2; -2; -2; -2; -2;
  -2; -2; -2; -2; -2; -2; -2; -2; -2; -2; -2; -2; -2; -2; -2; -2; -2; -2; -2; -2; -2; -2; -2; -2;
  -2; -2; -2; -2; -2; -2; -2; -2; -2; -2; -2; -2; -2; -2; -2; -2; 60; 15; 60; 16; 60; 18; 60; 20;
  59; 19; 59; 17; 59; 15; 59; 14; 59; 12; 59; 10; 59; 12; 59; 14; 59; 15; 59; 17; 59; 19; 59; 21;
  59; 23; -2; -2; -2; -2; -2; -2; -2; -2; -2; -2; -2; -2; -2; -2; -2; -2; -2; -2; -2; -2; -2; -2;
  -2; -2; -2; -2; -2; -2; -2; -2; -2; -2; -2; -2; -2; -2; -2; -2; -2; -2; -2; -2; -2; -2; -2; -2;
  -2; -2; -2; -2; -2; -2; -2; -2; -2; -2; -2; -2; -2; -2; -2; -2; -2; -2; -2; -2; 60; 17; 60; 18;
  60; 20; 60; 21; 59; 19; 59; 18; 59; 16; 59; 15; 59; 13; 59; 12; 59; 13; 59; 15; 59; 16; 59; 18;
  -2; -2; -2; -2; -2; -2; -2; -2; -2; -2; -2; -2; -2; -2; -2; -2; -2; -2; -2; -2; -2; -2; -2; -2;
  -2; -2; -2; -2; -2; -2; -2; -2; -2; -2; -2; -2; -2; -2; -2; -2; -2; -2; -2; -2; -2; -2; -2; -2;
  -2; -2; -2; -2; -2; -2; -2; -2; -2; -2; -2; -2; -2; -2; -2; -2; -2; -2; -2; -2; -2; -2; -2; -2;
  60; 20; 60; 21; 60; 22; 59; 22; 59; 20; 59; 19; 59; 17; 59; 16; 59; 15; 59; 14; -2; -2; -2; -2;
  -2; -2; -2; -2; -2; -2; -2; -2; -2; -2; -2; -2; -2; -2; -2; -2; -2; -2; -2; -2; -2; -2; -2; -2;
  -2; -2; -2; -2; -2; -2; -2; -2; -2; -2; -2; -2; -2; -2; -2; -2; -2; -2; -2; -2; -2; -2; -2; -2;
  -2; -2; -2; -2; -2; -2; -2; -2; -2; -2; -2; -2; -2; -2; -2; -2; -2; -2; -2; -2; -2; -2; -2; -2;
  -2; -2; -2; -2; -2; -2; -2; -2; -2; -2; -2; -2; -2; -2; -2; -2; -2; -2; -2; -2; -2; -2; -2; -2;
  -2; -2; -2; -2; -2; -2; -2; -2; -2; -2; -2; -2; -2; -2; -2; -2; -2; -2; -2; -2; -2; -2; -2; -2;
  -2; -2; -2; -2; -2; -2; -2; -2; -2; -2; -2; -2; -2; -2; -2; -2; -2; -2; -2; -2; -2; -2; -2; -2;
  -2; -2; -2; -2; -2; -2; -2; -2; -2; -2; -2; -2; -2; -2; -2; -2; -2; -2; -2; -2; -2; -2; -2; -2;
  -2; -2; -2; -2; -2; -2; -2; -2
]%Z.

(** src/faddeeva.rs:527-3552 [TAYLOR_COEFFS], 3024 entries, digits as in the source *)
Definition TAYLOR_COEFFS : list dec := [
  0.21428571428571427; 0.2857142857142854; 0.7200231235172582; 0.14709038623319354;
  -0.22452968937414297; 0.6538986452714254; -0.4850814342881062; -0.22306018468445818;
  0.17649615311259467; -0.31167022583781706; 0.17910609704801556; 0.11970959466591027;
  -0.07226931588733519; 0.09393799970113276; -0.04559346219537337; -0.039730263354209566;
  0.020196525624326014; -0.020685048101464012; 0.00883890538314988; 0.009598084442250392;
  -0.004299614874936703; 0.003578425373986437; -0.001379030417762035; -0.0018272856973388285;
  0.0007405526845849954; -0.000507791902243448; 0.00017920952602309186; 0.00028741862775159485;
  -0.00010720540276102013; 0.000060769149934737586; -0.000019839189350013016; -0.00003854435333961694;
  0.000013392531365198603; -0.000006245507444451652; 0.0000018981163127391057; 0.000004507029853814266;
  -0.0000014719467952583254; 0.0000005573407513438984; -0.00000015816210307299138; -0.0000004673226430666518;
  0.0000001444545178238265; -0.00000004336958028062149; 0.000000011481625488770814; 0.00000004353434051771203;
  -0.000000012807284108360786; 0.000000002929555104901235; -0.0000000007181992473902865; -0.0000000036820798449949937;
  0.21428571428571425; 0.0; 0.955119927982107; 0.23452781939565862;
  -0.40933711199233147; 1.027867244497373; -0.8674048325551789; -0.45478508607366713;
  0.3968063840741989; -0.6202755316543916; 0.3911874465553538; 0.2938506357140898;
  -0.192252906191567; 0.22292301531483466; -0.11666346507619649; -0.11387328442718478;
  0.06207206289613322; -0.05672045634951288; 0.0258405771853277; 0.031506916982662954;
  -0.015024295430188066; 0.011104216475320498; -0.004524217061486052; -0.006777278388332041;
  0.002907958275416767; -0.0017548986427206605; 0.000650180524220886; 0.001192221349581078;
  -0.0004688127189944769; 0.00023068040603676937; -0.0000785315222664181; -0.00017737898073719798;
  0.00006475212031163744; -0.000025689416593363597; 0.000008082008489240545; 0.00002286048196518627;
  -0.000007821644620425595; 0.000002445969633710349; -0.0000007117713094292925; -0.0000025982909239185623;
  0.0000008393860046183925; -0.00000019886242180593384; 0.00000005319028798682084; 0.0000002640904300019834;
  -0.0000000810270403307344; 0.000000013549677654946422; -0.0000000032570318884629134; -0.00000002427217566878316;
  0.571428571428572; 0.2857142857142859; 0.5884176686311969; 0.3403747013338351;
  -0.4779775062448912; 0.4031408406390165; -0.20010456773725405; -0.4341758942004471;
  0.31218181202498674; -0.06524506401874448; 0.0015367570016672305; 0.19113199224486674;
  -0.1033803272966767; -0.017764916277233752; 0.01748734179145567; -0.05048112504817993;
  0.022561251992430784; 0.011889968593895706; -0.006745587975790053; 0.009310196320600535;
  -0.003565905377862037; -0.0033961710948600637; 0.0015625827186359542; -0.0012701394031154117;
  0.00042001890816258737; 0.0006682750607587062; -0.0002686096319424909; 0.00012804375624875903;
  -0.000035375963008145686; -0.00010226112497628566; 0.00003708671480974383; -0.000008500201384079158;
  0.0000015673234104740196; 0.000012869623823825306; -0.000004288161601115219; 0.00000008729049236258563;
  0.00000010682291623307438; -0.0000013758017736806225; 0.0000004260037459605236; 0.00000007426234628124201;
  -0.00000003463534894603207; 0.0000001275421885521555; -0.00000003697714926907465; -0.00000001372477828978932;
  0.00000000493750317168632; -0.00000001039376745806506; 0.0000000028350973672811317; 0.0000000016593962534728944;
  0.0; 0.357142857142857; 0.6969682576054363; 0.0;
  0.0; 0.630544697377344; -0.4717737228278136; 0.0;
  0.0; -0.3080360547211309; 0.18088042307084773; 0.0;
  0.0; 0.09737436144975983; -0.04870128847007308; 0.0;
  0.0; -0.0228517268968627; 0.010134989358869816; 0.0;
  0.0; 0.004273797297805218; -0.0017217266362164478; 0.0;
  0.0; -0.0006652536232232574; 0.00024735600941564264; 0.0;
  0.0; 0.00008875572173678451; -0.00003080821962382729; 0.0;
  0.0; -0.00001036703815424616; 0.000003388213249663851; 0.0;
  0.0; 0.0000010772896463119916; -0.00000033371854971217427; 0.0;
  0.0; -0.00000010085309999854896; 0.000000029769958542697825; 0.0;
  0.0; 0.000000008592473518817663; -0.0000000024273834545693587; 0.0;
  0.3571428571428575; 0.0; 0.8802485040505601; 0.37041090482564853;
  -0.6287489314646864; 0.8637999493629063; -0.6556953142417433; -0.6789108867409724;
  0.5752838862721109; -0.41422118368456295; 0.22511839171513748; 0.41342351188558685;
  -0.26227332475386406; 0.10662797177588414; -0.043816449053395316; -0.15050164345899136;
  0.07940630187389945; -0.015107824236069805; 0.003864263881750656; 0.03897432374296836;
  -0.017952532470529296; 0.00026409397762119517; 0.0005094709715448198; -0.007813728604138042;
  0.0032310142822037148; 0.0004593678874544613; -0.00027723410729340556; 0.0012749447740554797;
  -0.00048184647708115363; -0.00014072389334769079; 0.00006418887640319846; -0.00017495517724528837;
  0.00006118958378209675; 0.000027094384696134416; -0.000010755287397814842; 0.0000206598264102979;
  -0.000006746871730758656; -0.000004055634603339256; 0.0000014627649382793738; -0.0000021345983867259866;
  0.0000006552058611971754; 0.0000005071569652660115; -0.00000016967670315640797; 0.00000019534708991309825;
  -0.00000005662924177536336; -0.00000005494512219924934; 0.00000001726376657835408; -0.000000015974893816799534;
  0.49999999999999983; 0.0; 0.778800783071405; 0.47892517290104336;
  -0.7788007830714048; 0.6494539941944694; -0.3894003915357028; -0.8036521699982779;
  0.649000652559504; -0.16508527279688703; 0.032450032627975425; 0.4430974031983607;
  -0.2660902675493967; -0.022585371520917306; 0.03353170038224096; -0.14393490581263402;
  0.07123554781665035; 0.027015092693495512; -0.017287368572641532; 0.03260683986647157;
  -0.013909303006739909; -0.00962633613927362; 0.004848404015202297; -0.005558734359366952;
  0.002088200181661593; 0.0022555824216285627; -0.0009820840176721821; 0.0007384905247587785;
  -0.00024571664197315415; -0.00040381964369353107; 0.00015784890552267988; -0.00007665438613028758;
  0.00002223895856157523; 0.00005895291156782331; -0.000021121048100433436; 0.000005897241293296991;
  -0.0000013739334719245314; -0.000007282533201702565; 0.0000024231127595995222; -0.00000025066385471618997;
  0.000000017092325486817965; 0.0000007797752767432274; -0.0000002431658922342931; -0.000000013922378365542361;
  0.00000000995148767907891; -0.0000000736013416724244; 0.000000021653649854068516; 0.000000004611186291068596;
  0.6428571428571427; 0.0; 0.6614867630574851; 0.5550039700556801;
  -0.8504829810739092; 0.41480263416678115; -0.11474770379568648; -0.8216628063057537;
  0.6161662413902813; 0.07560611325794499; -0.1406795828347471; 0.38652943817710883;
  -0.2102917466843204; -0.1296357294058631; 0.0919557114248891; -0.10106406118635133;
  0.043193531648091504; 0.0556015665787601; -0.029930745442522697; 0.016330049239287103;
  -0.005322741810961538; -0.014688767861209926; 0.006670501607056737; -0.0013774539799875738;
  0.00018810221935001195; 0.002831686180218534; -0.001131904077058862; -0.00007381928454929486;
  0.00008300775409483066; -0.00042834321936391015; 0.00015407742134663873; 0.00004988325467311549;
  -0.000024274336661403594; 0.00005283672170511145; -0.00001730906132946705; -0.000010481214828300177;
  0.000004164892985082804; -0.000005423387986696292; 0.0000016257366805301071; 0.0000015519642815592785;
  -0.0000005484220444806784; 0.00000046586280661439543; -0.00000012731796519353854; -0.00000018514475143828185;
  0.00000006002564836375064; -0.00000003303249339902721; 0.000000008066368035297298; 0.000000018761811433293446;
  0.857142857142857; 0.2857142857142858; 0.4426248972032534; 0.4198077296943961;
  -0.5188954068087792; 0.15578026064611736; 0.04665124024601942; -0.405077836874274;
  0.2421147364225514; 0.11873359202197935; -0.11012713687239181; 0.11706527379592421;
  -0.04570913063609489; -0.07504414361054954; 0.04262173593820061; -0.013227323506475359;
  0.0015419939514493837; 0.02120120303821623; -0.00947148961427386; -0.0013464264852453077;
  0.001375940541428789; -0.0038535518453172712; 0.0014382194388774213; 0.0008512690110218056;
  -0.0004300873350966867; 0.0004932677915152006; -0.00015477324948884354; -0.0001918646465726302;
  0.0000781433307574639; -0.00004378330026797661; 0.000010754819619207515; 0.000029580931961251903;
  -0.000010521340363714067; 0.0000020473880165697116; -0.00000014394498426837112; -0.000003541217341084883;
  0.0000011332876936040155; 0.00000012106685544635384; -0.00000008809488191829821; 0.0000003459610296461591;
  -0.00000010094018803648123; -0.00000004130893837841857; 0.000000016281248927001965; -0.00000002817133144542343;
  0.000000007517702854455918; 0.000000005790857951938321; -0.000000001915496671582761; 0.0000000019145294376288603;
  0.3571428571428575; 0.5714285714285718; 0.5422361110480248; 0.15757990254002804;
  -0.20722019070284306; 0.39612368122632075; -0.2418725108105402; -0.1806411082906609;
  0.12691982655081985; -0.128930757582422; 0.061434641354788794; 0.07708109612767156;
  -0.04192577169897284; 0.026518514133635405; -0.010435904938168938; -0.02086480340151895;
  0.009637181658455361; -0.003743835537917332; 0.001213679938191957; 0.004173731643628733;
  -0.0017079220596873804; 0.00034659682233592533; -0.00008113048939375831; -0.0006643121520711835;
  0.0002467800528054889; -0.000011451309573986592; -0.000002258141536984789; 0.00008789745540979271;
  -0.00003011483943201735; -0.000002869272645244762; 0.0000016248367093460798; -0.000009952033643415665;
  0.0000031796885652779727; 0.0000007326789673879657; -0.0000002927207590904577; 0.0000009841747111487113;
  -0.00000029561881032982883; -0.00000010787069770127242; 0.00000003740650077226487; -0.0000000863027141661664;
  0.00000002452036937914998; 0.000000012349258138876144; -0.000000003910705661403207; 0.0000000067880625185624915;
  -0.000000001832837706480161; -0.0000000011941787839853933; 0.0000000003529911527283283; -0.000000000483112205766926;
  0.785714285714285; 0.0; 0.5393735320222423; 0.5978657711144957;
  -0.8475869788920942; 0.18887581248702015; 0.12658766567868834; -0.7462681952114399;
  0.4987501610487499; 0.26498517964321666; -0.25923139610849577; 0.2690327770315992;
  -0.11802733992825852; -0.19054723035293208; 0.11732238773166151; -0.03977236534666996;
  0.007384418243823343; 0.06337055599498813; -0.030781107659380674; -0.0025046964480623097;
  0.0037334972831692117; -0.013645017825415055; 0.005569529101663831; 0.002645156376463397;
  -0.0014744647023723512; 0.0021030328495417324; -0.0007351701868714022; -0.0007162565549457928;
  0.00031570744932745424; -0.0002369630526283576; 0.0000695877619754861; 0.00012892025865462276;
  -0.00004938447306966386; 0.000018089141824725306; -0.00000384820949902235; -0.00001789164447532765;
  0.000006165654852643192; -0.00000047428484300462446; -0.00000011069262216477897; 0.0000020293663168860157;
  -0.0000006398612713773844; -0.00000011791760664422114; 0.00000006134407639612948; -0.00000019367167688084135;
  0.00000005634879563895209; 0.000000025722686657879926; -0.000000009601648192040813; 0.00000001576918131879935;
  1.214285714285713; 0.28571428571428537; 0.2723147792151456; 0.43064033059276274;
  -0.41525570346948876; -0.07307008103842176; 0.21104712327254121; -0.22326788834053976;
  0.06346224759892798; 0.1892546068208054; -0.11701783956121896; -0.012336673913637256;
  0.030042431728605136; -0.05633627659184477; 0.021480554954842853; 0.024053819284234793;
  -0.014072412271344101; 0.005997361727233967; -0.0006697734615359749; -0.006828910183158716;
  0.0028743536494014944; 0.0005525000441042288; -0.0005325311914557828; 0.0010673546745263455;
  -0.0003495909368671071; -0.0003084403288127783; 0.0001448181106175079; -0.00009882281078670456;
  0.000022385428488956597; 0.0000595481312558554; -0.00002214095212177501; 0.00000287407556845405;
  0.0000007094903761771298; -0.0000075616125119866146; 0.000002389870921981183; 0.0000007631463682205992;
  -0.00000039922760896871846; 0.000000700248766555779; -0.00000018944705150035908; -0.0000001665981567512837;
  0.00000006122852461701523; -0.0000000467182395564485; 0.000000010175006030642683; 0.00000002058335834649668;
  -0.000000006447898052878585; 0.000000001792096855627654; -0.00000000016667162407500712; -0.0000000019015653973059044;
  0.7857142857142855; 0.5714285714285714; 0.4204205303152952; 0.2868685160005906;
  -0.332811100780503; 0.1971051787342473; -0.046294563282473035; -0.25155909884578315;
  0.15029156267942764; 0.018001623394473143; -0.030752511298689136; 0.07576703660951209;
  -0.033133370295723136; -0.02398400113822125; 0.014360243388781722; -0.012663036610641679;
  0.0041755145709875836; 0.007350764725344941; -0.003360141962875857; 0.0011253568571837234;
  -0.0001982982149955868; -0.0014033094584260837; 0.0005428113168257827; 0.000018111339458278337;
  -0.000039608555317911234; 0.00019616385908205; -0.00006659944588580396; -0.000024934437616370908;
  0.00001195206789300696; -0.00002131010600310097; 0.000006433047424013992; 0.000004978334178767833;
  -0.000001888245702248654; 0.0000018296707493795765; -0.0000004879874572895008; -0.000000667116885070855;
  0.00000022240644353864557; -0.00000012078323611108118; 0.000000027135616144756044; 0.00000007054762253892618;
  -0.00000002141203764527778; 0.000000005247041567435341; -0.0000000007313562813503311; -0.0000000062434847973180934;
  0.0000000017541875357156316; 0.000000000007283000525216853; -0.00000000005843383733614008; 0.000000000475942687473707;
  0.9285714285714282; 0.0; 0.422213192102104; 0.6104910694743664;
  -0.7841102139039071; -0.005389961928310146; 0.3058891493800951; -0.6054861048266498;
  0.33338019298635546; 0.3784180395115612; -0.3077282357194268; 0.12704896264010013;
  -0.019053018213040847; -0.1985568304995188; 0.1084734413533692; 0.019108412369817657;
  -0.02333494862471892; 0.051660944207870076; -0.021701318693318268; -0.016769822283567104;
  0.009663594027923845; -0.008019770305139822; 0.00254559627633494; 0.004843350370525102;
  -0.002186793090692052; 0.0006404315513653404; -0.00008583378202014873; -0.0009063394685131053;
  0.000348691675120337; 0.00003094913595116041; -0.0000339930492681867; 0.00012537156930426927;
  -0.00004228356010665039; -0.000019648745754969004; 0.000009157044385188113; -0.000013390788173617615;
  0.000003974187096518152; 0.000003774476359887353; -0.000001427484552756901; 0.0000010984352520008812;
  -0.00000027880691853695053; -0.0000005046791527401083; 0.0000001686376691398355; -0.00000006298046101707811;
  0.000000011639504494554059; 0.00000005363438184750701; -0.000000016313252768746102; 0.0000000011979187676720954;
  0.0; 0.9285714285714292; 0.4479162128485902; 0.0;
  0.0; 0.29653477180527316; -0.17256249617226493; 0.0;
  0.0; -0.09086544547782754; 0.044093719828569654; 0.0;
  0.0; 0.01996851082623371; -0.008517177068069924; 0.0;
  0.0; -0.003445629585354343; 0.0013294159704173652; 0.0;
  0.0; 0.0004913715330084928; -0.00017462848081046717; 0.0;
  0.0; -0.000059857548202374344; 0.00001984107862756754; 0.0;
  0.0; 0.000006374413765657831; -0.0000019888543044121806; 0.0;
  0.0; -0.0000006036827310652502; 0.00000017853647105287743; 0.0;
  0.0; 0.00000005151751353971508; -0.000000014522086656539584; 0.0;
  0.0; -0.000000004003444082864635; 0.0000000010804602865308135; 0.0;
  0.0; 0.00000000028572947915104966; -0.00000000007410364144459572; 0.0;
  1.0714285714285712; 0.0; 0.31728362670156474; 0.5985087983633739;
  -0.6798934857890672; -0.15413968654028834; 0.41117367950100703; -0.433359134213065;
  0.159566838501516; 0.4123020297504767; -0.2910690746620299; -0.0041965202597942395;
  0.06091715374026354; -0.16312230321742172; 0.07526689855153491; 0.059656805521391534;
  -0.04044578838034108; 0.02834408494332717; -0.007983031321720941; -0.02250636699016766;
  0.01088867471667602; -0.000940026735778818; -0.0007366811749435297; 0.004702707698557564;
  -0.0018362497196014458; -0.0007451979373696103; 0.00045068193146703683; -0.0006507135561816874;
  0.00020821172640016143; 0.0002219063128120863; -0.00009625227486266262; 0.00005899382749349317;
  -0.000014011238539641153; -0.00003801519801687243; 0.000013908039519391909; -0.0000022829072737126607;
  -0.00000010473322046976856; 0.000004760137658335327; -0.0000015328694838447637; -0.0000003130266908178782;
  0.00000018390456649810682; -0.0000004657633598077174; 0.00000013358288768825064; 0.00000008120588620404324;
  -0.000000031145627525831664; 0.000000036072100301002686; -0.000000009110233862000221; -0.000000010895869554361336;
  0.5000000000000004; 0.9285714285714284; 0.4074033926239229; 0.13750723344288882;
  -0.15203281622998693; 0.23426563306533843; -0.11385461094825801; -0.11346672061914172;
  0.06906544456232294; -0.04787342267873292; 0.017433998089850827; 0.036635616718175605;
  -0.017505462661862693; 0.005346760723056308; -0.0012388058386938242; -0.007684641535991373;
  0.0031397505748785035; -0.00010117721362916228; -0.00010625492963598418; 0.0012049368665332646;
  -0.00043727848057007493; -0.0000894724284072507; 0.000048362525851429236; -0.00015083126978862824;
  0.000049643565451543856; 0.000021814546105887384; -0.000008821324056003342; 0.000015637733374160878;
  -0.000004724946308412079; -0.000003298797432675892; 0.0000011600897379402528; -0.0000013715549306139184;
  0.00000038284196242101326; 0.0000003876464950336823; -0.00000012394415743457828; 0.00000010277944689183845;
  -0.000000026521391279480988; -0.00000003811120178205803; 0.000000011312875554553243; -0.000000006566315534746659;
  0.0000000015544905795425151; 0.0000000032515312141567435; -0.0000000009070841859750383; 0.00000000034970943895216654;
  -0.000000000073925551737359; -0.0000000002461041404978509; 0.00000000006504742622948045; -0.000000000014364746683504591;
  1.214285714285713; 0.5714285714285722; 0.27969439054709; 0.328705446360758;
  -0.30359443834492256; 0.010443779594140678; 0.09492387292553885; -0.16790464252797282;
  0.061589483660522505; 0.09279881072634542; -0.058341605620559324; 0.010013190848556008;
  0.005990287174018303; -0.028647849989423223; 0.011565828495574604; 0.00711682096543485;
  -0.004562215043623376; 0.0038277003158150172; -0.0009596846548201243; -0.0022894406881420726;
  0.0009820654640878216; -0.00011094976959419109; -0.00005924465541092487; 0.00037259702863410974;
  -0.00012676598865157013; -0.00005593370739186733; 0.000030202110996365463; -0.00003870663650003846;
  0.000010457525958060013; 0.000013180965230943644; -0.0000050526507488631355; 0.0000023893499429593515;
  -0.00000039424286798563945; -0.000001759345297834427; 0.0000005657542576532529; -0.0000000034650553067908213;
  -0.00000003467346782151818; 0.00000016944290797202848; -0.000000047425138019075414; -0.000000020274848560771938;
  0.0000000084921587017997; -0.00000001239193369866671; 0.000000003003212605336623; 0.0000000030469534508124522;
  -0.0000000009902667245538685; 0.0000000006643752535702673; -0.00000000012919116966710926; -0.00000000029889346640024614;
  1.2142857142857142; 0.0; 0.22889548066710624; 0.5688359100555797;
  -0.555889024477258; -0.25307947161089506; 0.4461126204838498; -0.26152512309949283;
  0.009453894974103112; 0.3804304616782814; -0.22879617504763036; -0.10021307589778154;
  0.1073480127477792; -0.10349726209239009; 0.03281500557034711; 0.07529610757475173;
  -0.04205565863601653; 0.0034475069494424864; 0.004563144979061095; -0.019870591503340116;
  0.008114377083495123; 0.00459579298832678; -0.00288326343037532; 0.0028579971463600913;
  -0.000838776634448718; -0.0014665851081129412; 0.0006502963191771749; -0.00017952396679906283;
  0.000007558631387583298; 0.0002591659225182994; -0.0000942106653272384; -0.000019311072934940912;
  0.000014245337820351301; -0.00003142890167011615; 0.000009614094389601478; 0.0000071843424060816725;
  -0.000003049364152169272; 0.0000026711832141028377; -0.0000006568105624408182; -0.0000011586580025785052;
  0.0000004049389300140129; -0.00000013307803724515145; 0.00000001650990045666597; 0.00000013202527620904748;
  -0.00000004047492059836396; -0.00000000259413043620195; 0.000000002967110673888725; -0.000000011715932789033971;
  1.4285714285714295; 0.0; 0.12992260830505914; 0.5060883077209747;
  -0.3712074523001692; -0.3175874263929874; 0.40037375212375437; -0.052391984302420896;
  -0.1338367004891773; 0.26162207883572586; -0.1045892328553219; -0.16067692130287956;
  0.11329995611299776; -0.012833447932644815; -0.01908928243536786; 0.059670139449838344;
  -0.024579872181114515; -0.020688459549790615; 0.013550846387811441; -0.007528799308962932;
  0.001160337821894829; 0.006987530474227418; -0.0030416943695322396; -0.0004906774165581058;
  0.0005790799725210029; -0.001143011406597685; 0.00036907287765513435; 0.00035392514242579994;
  -0.0001702041447076564; 0.00009806216311924818; -0.000017989157071619908; -0.00007057342098312412;
  0.000026120392069900838; 0.0000003676012951715119; -0.0000024157110928155212; 0.000008756034534467031;
  -0.0000026669854380025317; -0.0000015148496539642177; 0.0000006917433655513331; -0.0000007324404000258259;
  0.00000017671375053390056; 0.00000026959927184974116; -0.00000009441915805997626; 0.0000000347298583097624;
  -0.00000000398373704949035; -0.000000030401271918990645; 0.000000009100928271619966; 0.0000000007909572859944136;
  0.928571428571428; 0.9285714285714278; 0.3271064340097439; 0.21456415724047362;
  -0.20900708542864474; 0.12241949763082366; -0.019353178311666278; -0.134161397142497;
  0.06826630243810611; 0.013419834003456674; -0.015787842617396942; 0.029154992366237233;
  -0.010613467981321192; -0.010332874936666204; 0.005349464433906478; -0.003234938933178221;
  0.0007549246523754217; 0.0023912534204869294; -0.0009575040730221627; 0.00007837196638008136;
  0.00004599116474560732; -0.0003499814365153962; 0.00011796304579881766; 0.00004078094290980164;
  -0.000021392774597346884; 0.00003683205529874673; -0.000010649522053978937; -0.00000918623630780263;
  0.000003500236912781851; -0.000002832790279992242; 0.0000006812648494861425; 0.0000012237806334997134;
  -0.00000039952963415970947; 0.0000001418425965816693; -0.00000002232025797471496; -0.0000001230624766114417;
  0.00000003599803391561753; -0.0000000008052168279271835; -0.000000001317132127143425; 0.000000010042603574763569;
  -0.0000000026789166217583055; -0.0000000007681059641209115; 0.000000000309145630923529; -0.0000000006841796887875726;
  0.00000000016728982005695213; 0.00000000010631922618996821; -0.00000000003325101657922206; 0.000000000039101285985818536;
  1.5714285714285714; 0.3571428571428574; 0.16297562240844543; 0.36601326382669447;
  -0.25077105340747513; -0.1383593923658454; 0.18167910710121352; -0.059030271034839085;
  -0.03720461731886862; 0.11082390097058226; -0.04181737191246314; -0.05091710500966854;
  0.03389317998542877; -0.006350612680375081; -0.004570471816829151; 0.016263977361344464;
  -0.00597212761263345; -0.00502135847633023; 0.0030404753666409437; -0.0015600921163641099;
  0.00014156933220550773; 0.0014193439427845859; -0.0005512065818224492; -0.00014417319675986983;
  0.00012238582033009644; -0.00018107755793707556; 0.00004903590843531893; 0.00006416907056670663;
  -0.000027157649641371792; 0.000009650403477746342; -0.000000416147026485243; -0.000009947832818749523;
  0.000003234506337791741; 0.0000008174038900615901; -0.0000005468398358064013; 0.0000009385200195730325;
  -0.00000024000010288637295; -0.0000002466966026255207; 0.00000009287521390208108; -0.0000000516821785859455;
  0.000000007957412343110596; 0.000000031025445835621694; -0.000000009429920264281855; 0.000000000008597357885762376;
  0.0000000006537242163270835; -0.0000000026353454574883075; 0.0000000006783131406059; 0.00000000035447153229030307;
  0.5000000000000001; 1.285714285714286; 0.33633358995114265; 0.09504461414413161;
  -0.09193315358051853; 0.16847675021987105; -0.07375404859247768; -0.06108322036482902;
  0.033516405890841934; -0.028739004088561563; 0.01002284876659592; 0.016180100274727938;
  -0.007089937682653016; 0.0031049736433725623; -0.0008285903184063243; -0.0028723176443343993;
  0.0010889294324074959; -0.0001724241176645149; 0.000015609362729907128; 0.00038961939394639754;
  -0.0001323988651076053; -0.000009434391102538152; 0.000007692027681269296; -0.000042935017222784323;
  0.00001333648841204508; 0.000003820390879638664; -0.0000015747234593879735; 0.0000039796513517226;
  -0.0000011434510903506426; -0.0000005823957088792963; 0.0000001996649316740693; -0.00000031690029934336483;
  0.00000008482338433342803; 0.00000006455117380552815; -0.000000019885282189923745; 0.000000021945759430059875;
  -0.000000005489972568045784; -0.000000005877324956883914; 0.0000000016748564238995432; -0.0000000013276178658557675;
  0.0000000003100639052627094; 0.00000000046186811148250663; -0.00000000012360579474819607; 0.00000000006980302176338877;
  -0.00000000001509659672584735; -0.00000000003217598916755976; 0.000000000008162269471036368; -0.0000000000031186470094108566;
  1.7142857142857126; 0.0; 0.052930501932709054; 0.41610794719192845;
  -0.18147600662643087; -0.29827665184824076; 0.2581712237126007; 0.09522345597648377;
  -0.17406882268249424; 0.09002429440189344; 0.020116236157265988; -0.12477540890415047;
  0.05583353856515817; 0.04955056263066001; -0.03861029123251235; 0.01327719575053018;
  0.0029587234626138994; -0.020660419894733963; 0.008384548467007846; 0.005535166731539145;
  -0.0038516078045203604; 0.002482569475703748; -0.0003563584461374469; -0.0019582000236919705;
  0.0008113650905270618; 0.00015897179102278923; -0.00017242552293720485; 0.0002809461588945315;
  -0.00007935053535039508; -0.000098552888876789; 0.00004406500172990151; -0.00001599976419878069;
  0.0000005080709846466276; 0.000016797474143293162; -0.000005616997570090538; -0.0000015994882201438026;
  0.0000010730667890514285; -0.0000016535875690979249; 0.0000004197171670161371; 0.0000004926899741298682;
  -0.0000001886928350008066; 0.00000008515538788160994; -0.00000000962437355861832; -0.00000006386706390697709;
  0.000000019542072485837634; 0.000000002317238798808907; -0.0000000021705747392171835; 0.000000005444968594326399;
  1.4999999999999987; 0.9999999999999996; 0.2118365859685108; 0.2331709774044425;
  -0.169167803096647; 0.005193062945164275; 0.04710818162162376; -0.07179276872554198;
  0.01780850795911298; 0.036925272347683245; -0.018447835606304988; -0.0007018238775479049;
  0.0036645686291186283; -0.006969880370022565; 0.001993700764201496; 0.002497358601154372;
  -0.0011879317640761426; 0.00035146905831128997; 0.0000349164850560015; -0.0004591576061362911;
  0.0001503109845235221; 0.00006718908129714324; -0.00003863877610882825; 0.00004161259993341086;
  -0.00000922549462306708; -0.00001653985547062386; 0.000005989527095467501; -0.000001262887017401335;
  -0.00000015718200577469184; 0.000001914562907885902; -0.0000005484558827027946; -0.00000020739647695040338;
  0.00000010299591371713063; -0.00000014066830796766706; 0.00000003166171301992898; 0.00000003942537814809665;
  -0.000000013066247658697344; 0.000000005866885614775667; -0.0000000006883839907897016; -0.0000000039066065457292005;
  0.000000001072864957805547; 0.00000000007172717837977159; -0.00000000008491862675388459; 0.0000000002726150820353997;
  -0.00000000006408304148945911; -0.00000000003768868330276059; 0.000000000013032227789573872; -0.00000000001381809232652725;
  1.8571428571428572; 0.357142857142857; 0.10507253696685909; 0.32390464293617044;
  -0.1589089637796407; -0.14974703307230555; 0.13656302681236454; 0.010950191262268684;
  -0.06053153561405548; 0.053758969339593794; -0.0024738429539175803; -0.04458493580110439;
  0.01968104961123177; 0.011970056424113971; -0.009933885867062144; 0.005108628241246175;
  0.0001691730447469767; -0.005117054997442561; 0.001948046928361354; 0.0010835137380772364;
  -0.0007555567313248683; 0.0005353520338473164; -0.00007073459733394; -0.00036157945080695996;
  0.00013777917552202333; 0.00002934818485439259; -0.00002910991995982719; 0.000042978138422299;
  -0.000010518240068585987; -0.000015195127331232246; 0.000006173851883312808; -0.000001571728846502221;
  -0.0000002011755451280027; 0.0000021212140307594777; -0.0000006303329646361952; -0.00000028697752877745816;
  0.00000014932963923063716; -0.0000001603690408339311; 0.000000032859092704289763; 0.0000000590526370509003;
  -0.000000019922467475834233; 0.000000004101522893459992; 0.0000000005604605069923803; -0.000000005955458404024235;
  0.0000000015956821731956204; 0.000000000643661873885907; -0.00000000029945372877629816; 0.00000000038092726019043904;
  1.7142857142857129; 0.785714285714286; 0.1706415113862612; 0.2651571464291856;
  -0.168381094649889; -0.04888199569724784; 0.0796045113942821; -0.049060008008990796;
  -0.004420620783962939; 0.04695897650667355; -0.01756498282612249; -0.013983874836096453;
  0.009417875874438843; -0.0036742246839933605; -0.000488946022493909; 0.004294262035770562;
  -0.0014873199042615064; -0.0009437701435745581; 0.0005742759006762626; -0.0003769404662164627;
  0.00004592876055634455; 0.000253052671298413; -0.00009083676397910572; -0.000018590199289303135;
  0.00001730633111074516; -0.000027238548200835633; 0.000006627841890957198; 0.000008614503626810734;
  -0.000003369201110313041; 0.0000011174211754693648; 0.0000000037007459619914645; -0.0000011261219058486894;
  0.000000330406254066278; 0.00000010802210550681435; -0.00000006065461946860346; 0.00000008516702995525936;
  -0.000000018765876976248377; -0.000000024278297326613323; 0.000000008194321026965575; -0.000000003200274895207774;
  0.0000000002319966103234445; 0.0000000024553776598567796; -0.000000000666280419763258; -0.00000000011912270012294086;
  0.00000000007777161788052794; -0.0000000001645391688275408; 0.00000000003669789734058438; 0.000000000030916688681145064;
  1.07142857142857; 1.42857142857143; 0.2549353809201791; 0.14934558734414394;
  -0.1195884238456857; 0.07996610587183503; -0.012567632697180134; -0.06418295242727305;
  0.02757587503580187; 0.004503402768905097; -0.005272257585657274; 0.009981885419007441;
  -0.003066876523891948; -0.0030665933810467777; 0.0013924496770629854; -0.0007716658255372276;
  0.00013502468709791738; 0.0005440469627847664; -0.00018997725945812886; -0.0000010335111822972828;
  0.000014899096013573659; -0.0000603430098744395; 0.00001756192849602012; 0.000008880462634246855;
  -0.00000382346777851163; 0.000004679956218286332; -0.0000011299506892961976; -0.0000014054341021847404;
  0.00000046559480433968037; -0.00000023998749161883075; 0.00000004117997706811172; 0.00000014248973181709394;
  -0.0000000408212598136697; 0.000000003798851086142752; 0.000000000998002142627998; -0.000000011030480495161266;
  0.000000002822840297048154; 0.0000000007757415913349601; -0.00000000032380795734773817; 0.000000000685188866041827;
  -0.00000000015758546975655294; -0.00000000011024102347640648; 0.000000000033516235569203525; -0.000000000034195138409345855;
  0.000000000006935716155556266; 0.000000000009428412880447665; -0.000000000002498018069436622; 0.0000000000012895546845000112;
  2.0714285714285725; 0.0; 0.013693742168408045; 0.32409916555972074;
  -0.05673121755483335; -0.2143173759376169; 0.10382092276660397; 0.11984397031105734;
  -0.10555093878399284; -0.022620565518763253; 0.057410153785833515; -0.03649354229680958;
  -0.005348037623236372; 0.03928573268200468; -0.015444025283995579; -0.014961348943400054;
  0.01066835224410574; -0.00236981914672375; -0.0016636760911272947; 0.004967565008260528;
  -0.0016049257900760123; -0.0017600304315146488; 0.0009976330455426644; -0.0002643575371674649;
  -0.00008392723713861182; 0.0004195687612865139; -0.00013729729476878047; -0.00010079153044005239;
  0.00005666596558500221; -0.00003242866236538103; 0.0000028453992326312404; 0.000023995026885273304;
  -0.000008341334247012733; -0.000002303376252929445; 0.0000018041348563083213; -0.0000024029684380256454;
  0.0000005416703245818228; 0.000000856582791964336; -0.00000032512958254912195; 0.0000000698464854396292;
  0.000000013874987592323484; -0.00000010539629447556356; 0.000000029638853682216616; 0.000000014847441025975255;
  -0.000000007168548184195993; 0.000000007108655325881681; -0.0000000013445198325282381; -0.0000000026884102520404055;
  2.2142857142857157; 0.4285714285714286; 0.0718186403618604; 0.267450943267793;
  -0.08881031308727369; -0.11760527340059473; 0.07443050715970514; 0.031022296299498514;
  -0.04180321718723992; 0.011342838065030515; 0.011497487891383908; -0.019111458038767352;
  0.0032615476501672395; 0.010419158255515931; -0.0047513775738443715; -0.001785780459029872;
  0.0018554358149521436; -0.0012653215490659336; 0.000025157972784091354; 0.000948094277816952;
  -0.00033440369680531954; -0.00018773601209693666; 0.00012696981299151447; -0.00007781544762286243;
  0.0000036194138545499676; 0.00005556836581450342; -0.000018528202577205132; -0.00000779666138877182;
  0.000005240906786780538; -0.0000046713340976691255; 0.0000007030481745373499; 0.0000022706038341822985;
  -0.000000776605384957063; -0.00000008769838609054894; 0.00000012237412655002478; -0.00000021794795892859626;
  0.000000048497392544340615; 0.00000006092369220801702; -0.000000022627895137514322; 0.000000006917877867347423;
  0.0000000004812670740320332; -0.000000007004650631390395; 0.0000000018560239202990366; 0.0000000008386162641860448;
  -0.000000000403012129119744; 0.0000000004145024566524075; -0.00000000007145418273740256; -0.00000000014397487714357665;
  0.0; 1.785714285714287; 0.280364634660523; 0.0;
  0.0; 0.1270769004507868; -0.05344159814126075; 0.0;
  0.0; -0.021096983465690257; 0.007884206690549778; 0.0;
  0.0; 0.0028072171787405426; -0.0009571062904567448; 0.0;
  0.0; -0.0003137425151214074; 0.00009921294979212923; 0.0;
  0.0; 0.00003035034074438842; -0.000009003182549715692; 0.0;
  0.0; -0.0000025951325542668235; 0.0000007281695457065363; 0.0;
  0.0; 0.00000019920458370408913; -0.000000053206724972339546; 0.0;
  0.0; -0.000000013892343309988174; 0.000000003549871132705795; 0.0;
  0.0; 0.0000000008886220842200799; -0.00000000021811622025697716; 0.0;
  0.0; -0.0000000000525398772380202; 0.000000000012429501090336959; 0.0;
  0.0; 0.0000000000028899371025432557; -0.0000000000006608090110463375; 0.0;
  0.6428571428571431; 2.000000000000002; 0.23900901733977822; 0.0647404468666305;
  -0.04833552054176414; 0.08910538033644509; -0.029725422032896593; -0.025351435999388258;
  0.011161232280852163; -0.008904789704506257; 0.002370382364525262; 0.004376739552433252;
  -0.0015726281641293275; 0.0005401626766994543; -0.00009302725425249937; -0.0005262435530652237;
  0.0001656983693929959; -0.000004516783206844072; -0.000005631673121314403; 0.00004943761515662211;
  -0.000014045061730550673; -0.0000035558210177298208; 0.0000015097998682417524; -0.000003812321351110313;
  0.00000099087879977201; 0.0000005430907804862494; -0.0000001767686369014003; 0.00000024690566068514077;
  -0.00000005898930731331413; -0.000000053581319117962044; 0.000000015361099460576458; -0.000000013497416048546069;
  0.0000000029492643607801833; 0.0000000042048040684975426; -0.0000000011059308730103634; 0.0000000006119748746546593;
  -0.00000000011933635885293116; -0.00000000028074761669384303; 0.00000000006901687447931632; -0.000000000021424616246337825;
  0.0000000000033809616445844315; 0.000000000016472298454962288; -0.000000000003824575291233885; 0.0000000000004073358236121767;
  -0.00000000000001025090028527961; -0.0000000000008652387253566852; 0.00000000000019097160954451095; 0.000000000000015399170166412502;
  2.214285714285717; 1.0714285714285727; 0.12077665258403474; 0.2058022483506168;
  -0.09386321497797509; -0.04183790256586632; 0.042236999260910686; -0.012593448049796402;
  -0.008769699435406089; 0.01631297793105507; -0.0026700942210476494; -0.0070660197012309515;
  0.002844526212277088; 0.0008776095148315316; -0.0008960678753202322; 0.0006916782779357009;
  -0.00003408344220237694; -0.0004140314631396877; 0.00013198330385110025; 0.00006540591248689602;
  -0.0000417972308134507; 0.000028398533953894325; -0.0000018010584198573539; -0.00001670112664550726;
  0.00000507113172365297; 0.000001911315934468383; -0.0000012300062683120657; 0.0000011725952763546076;
  -0.00000016787605129833354; -0.0000004907558530205412; 0.0000001537031382786647; 0.000000013420799430074416;
  -0.00000002107829120962691; 0.00000003951419129309805; -0.00000000808664320541428; -0.000000009791578160381062;
  0.0000000033521709571168373; -0.0000000010786563617676056; -0.0000000000546360335026688; 0.0000000009542688658998257;
  -0.0000000002325010779891397; -0.00000000010271883665870772; 0.00000000004594039526300061; -0.00000000004777117154528941;
  0.00000000000758023990146662; 0.00000000001516914355225083; -0.000000000004224778034699424; 0.0000000000005509698246251695;
  2.6428571428571437; 0.0; 0.0009259467063139601; 0.23452338996911212;
  -0.004894289733373791; -0.11124446559836618; 0.012008961874745348; 0.05947984054085572;
  -0.01789578729039738; -0.030634837220692185; 0.017643523696366726; 0.010741828914058253;
  -0.011493410134285878; 0.0008982871791295743; 0.004243972457605797; -0.0043719578672526144;
  0.00007919920303240304; 0.0030446208281741374; -0.0011133211592621443; -0.0009186350089447593;
  0.0006362554611150113; -0.00013706660735685427; -0.00011364222616550576; 0.0002561764942490034;
  -0.00006107550762969407; -0.00009817659460022298; 0.00004584267795971145; 0.000000548370008597663;
  -0.000009243098655973706; 0.000014881127847088004; -0.0000030592126649482962; -0.00000569672357614922;
  0.00000231042142654018; 0.00000002326649960275396; -0.00000038086263814920117; 0.0000007044041926855998;
  -0.00000015339480974825268; -0.00000022175366490593074; 0.00000008736257852995371; -0.000000013148992826023476;
  -0.000000008157053151374066; 0.000000027000481528164656; -0.000000006580465234417939; -0.000000005820942264126885;
  0.0000000024331697809027262; -0.0000000011063393035483698; 0.000000000013631372652274356; 0.0000000007949853631757539;
  1.6428571428571432; 1.571428571428572; 0.18417555556090726; 0.16063600197232375;
  -0.10029224778710627; 0.02173770028073995; 0.014749523387644452; -0.038745834482372336;
  0.010116384404355886; 0.012492232125525072; -0.005869323641630573; 0.0011628531060823698;
  0.0005413665837237986; -0.0020717643166106533; 0.0005747686807558634; 0.0004633469274992449;
  -0.00021643223315376834; 0.0001163838800701533; -0.000009078121544679296; -0.00007861030530750089;
  0.000023959068935164454; 0.000006006053572592369; -0.000004169024361232003; 0.000006218650365168139;
  -0.0000013341441136398327; -0.0000017583788632215104; 0.0000005996109604772733; -0.0000002055621518831294;
  0.000000004006573170895836; 0.00000017751420272431985; -0.00000004674889969058563; -0.000000013194909653625043;
  0.000000006941377677249305; -0.000000010983239265849691; 0.0000000022607289753818886; 0.00000000254136544076615;
  -0.0000000007837480186421714; 0.00000000038300762290649275; -0.00000000004125264700502896; -0.00000000021544313561466394;
  0.00000000005399649743295832; 0.000000000003764237838774514; -0.000000000004154065360247121; 0.000000000012440739177059984;
  -0.0000000000026306884277579113; -0.000000000001683312196529158; 0.000000000000530064159469157; -0.0000000000005037598866752927;
  2.785714285714285; 0.5714285714285707; 0.04983191645167962; 0.20537555974904048;
  -0.042920037660454706; -0.07280685602248936; 0.02812712787530745; 0.021969274976725357;
  -0.015253488575086752; -0.0029772744180903326; 0.0063317167439055815; -0.0024795799559977918;
  -0.0015207072174024403; 0.002506620748169541; -0.00022103540358634944; -0.0012113912394148448;
  0.00041263575241189885; 0.0002840785937040032; -0.00019152982043255603; 0.00004605939603672352;
  0.00003271805764122043; -0.0000673202887909177; 0.000012383584681726384; 0.000024555932245741396;
  -0.000009669677293486805; -0.0000014839739216217828; 0.0000022842313991528773; -0.000002482745835109948;
  0.0000002904229764942145; 0.0000010915260580084607; -0.00000035279109395252007; -0.00000010341284064024894;
  0.00000008443455493435512; -0.00000008024700262408176; 0.000000008965639749131954; 0.00000003483871814131994;
  -0.000000010529697261903855; -0.0000000025796394014066237; 0.000000002099223186628174; -0.0000000024039566605427786;
  0.00000000034822860228430824; 0.0000000008501915480288399; -0.00000000025834648369751246; -0.000000000016342185312859363;
  0.000000000034486904419862544; -0.00000000006257526922191936; 0.00000000001150168406243624; 0.000000000015541109471921984;
  1.2142857142857155; 2.285714285714285; 0.1890069139629412; 0.08842398901893422;
  -0.0547928412520156; 0.049603587076083984; -0.009093121983015975; -0.0234161361781435;
  0.008207928263757061; -0.0002569524085821301; -0.0007304839212955254; 0.0024835854642742605;
  -0.0006576581192513888; -0.0004356609626015954; 0.0001777574314799983; -0.0001504500076087638;
  0.000027978307977123044; 0.00006058501629410977; -0.00001831276348070636; 0.00000323301739740873;
  0.00000036630514618040004; -0.000005034017341125108; 0.0000012723278046974121; 0.00000040848980796617005;
  -0.00000017774247885018427; 0.0000002963302115585641; -0.00000006319524232662601; -0.0000000603418045811438;
  0.00000001793160524020464; -0.00000001209411570866395; 0.0000000019682081715514154; 0.000000004862998607109718;
  -0.0000000012274862557307438; 0.00000000022537125819794983; 0.000000000004680644714618208; -0.00000000029137260451354834;
  0.00000000006538918719032233; 0.000000000013851731353707954; -0.000000000005824522261281597; 0.000000000013899071746716885;
  -0.000000000002794446964870565; -0.0000000000018332612502638166; 0.0000000000005027467860878564; -0.0000000000005285661451692386;
  0.00000000000009293500339645381; 0.00000000000012628152936570813; -0.00000000000002972299430692888; 0.000000000000014800129379647918;
  2.64285714285714; 1.428571428571427; 0.10037869089488403; 0.1643194370184848;
  -0.061088974677287536; -0.026962688273288887; 0.022552616076105918; -0.0057909399000964385;
  -0.004524759396943869; 0.006699528124166407; -0.0005117844605439957; -0.002725506930497477;
  0.0007935005139255002; 0.0004938871971701932; -0.00029325696724342103; 0.00009555382031327535;
  0.00003372606121051164; -0.00009356679116541783; 0.00001761424023768948; 0.000025887438652220878;
  -0.000009621317026940571; -0.000000002935850319224568; 0.000001561866423753765; -0.000002426988201863854;
  0.0000003684365800130095; 0.0000007610693103682646; -0.0000002413916331627235; -0.000000018457872116571302;
  0.000000037409020489090126; -0.00000005652963091855057; 0.000000008824045793987606; 0.000000016345164733026178;
  -0.000000004983930348231235; 0.00000000009678877959988646; 0.0000000005607549764350601; -0.0000000011851328941333722;
  0.00000000021281036020565265; 0.00000000026285524907424473; -0.00000000008307498425567533; 0.0000000000207143579206914;
  0.000000000003824936338305825; -0.00000000002093913567662784; 0.000000000004305317296639879; 0.0000000000029160591598530943;
  -0.0000000000010511882007815993; 0.0000000000006744718682001897; -0.000000000000051240528311918137; -0.00000000000029062677497219706;
  3.2142857142857113; 0.0; 0.00003258584217407665; 0.1857588167288948;
  -0.00020948041397620686; -0.06578465473309572; 0.0006407440598923019; 0.025691859198912696;
  -0.0012333693761660317; -0.011197547508939528; 0.0016618287531778267; 0.005150128897053591;
  -0.0016432892179050768; -0.002142575292635942; 0.001206724101458067; 0.0005789067526158817;
  -0.0006387048064273855; 0.00008051531079976598; 0.00021156390837177467; -0.0002094264914752109;
  -0.000009182675980102465; 0.00013169805976488504; -0.000036409632830003355; -0.00004277774012524099;
  0.000022947934299630963; 0.0000010548762198370383; -0.000006225264093611254; 0.0000065645110935798465;
  -0.0000004520241316739264; -0.0000034084754537232017; 0.0000010968855432233084; 0.0000006273289806880213;
  -0.00000040982392001537013; 0.00000018560811639203708; 0.00000002755070353183322; -0.0000001529908122078032;
  0.000000037796245556997377; 0.00000003601741949464386; -0.000000016559848408813853; 0.0000000041356150289704205;
  0.0000000016244040646515745; -0.000000005190575558110396; 0.0000000011338549629576655; 0.000000001254837783638441;
  -0.0000000005018036070627003; 0.00000000011020651394432488; 0.000000000043553200236455685; -0.0000000001462793642755376;
  0.0; 2.7142857142857166; 0.19594605878015253; 0.0;
  0.0; 0.0646719908603979; -0.02040779787335806; 0.0;
  0.0; -0.006186264421807796; 0.0018082543642255863; 0.0;
  0.0; 0.0005112581732781941; -0.00014018453606159085; 0.0;
  0.0; -0.00003735922562355634; 0.000009695230913698749; 0.0;
  0.0; 0.000002454133079511683; -0.0000006068025110048348; 0.0;
  0.0; -0.0000001467450349997379; 0.00000003474909314378146; 0.0;
  0.0; 0.000000008065548906952017; -0.0000000018366984239669753; 0.0;
  0.0; -0.0000000004106966151103155; 0.0000000000902438085834433; 0.0;
  0.0; 0.00000000001949989819641654; -0.000000000004146168164320453; 0.0;
  0.0; -0.000000000000868001387260558; 0.00000000000017901643988989369; 0.0;
  0.0; 0.000000000000036390440175726844; -0.000000000000007294762544031755; 0.0;
  2.071428571428571; 2.0000000000000004; 0.14321248331640216; 0.1319228619005921;
  -0.06561741185129748; 0.008991663098879464; 0.010692624573330102; -0.01931362604567601;
  0.0032274344767934927; 0.00641992304224042; -0.002269089238246461; -0.00021982746199020832;
  0.00041326675138036057; -0.0005705550720785407; 0.00009064217921954413; 0.00019171934570215465;
  -0.00006216767422513257; -0.0000022463476410234847; 0.00000841025552690302; -0.000015682712141728064;
  0.000002973556966718772; 0.000003980323243351713; -0.0000013218239799662664; 0.0000002981285836981081;
  0.0000000655934834870902; -0.00000035531406357290454; 0.00000007922060617096175; 0.000000051115358740502275;
  -0.00000001960962970377021; 0.000000013998621030320535; -0.0000000015147738381138095; -0.000000005841891842252667;
  0.0000000014751455769048448; 0.00000000015093177588596657; -0.00000000015487766314142944; 0.0000000003223695369420414;
  -0.00000000005995158664864886; -0.00000000005987551988035887; 0.00000000001770133920746651; -0.000000000008715389003936539;
  0.0000000000006161840898821966; 0.000000000004476436553609936; -0.0000000000010024847429288327; -0.00000000000017895977511627199;
  0.00000000000010499732369612093; -0.0000000000002000728263276183; 0.00000000000003498587582235609; 0.00000000000003485469968595683;
  3.35714285714286; 0.7142857142857137; 0.0393365144255794; 0.16683409629538476;
  -0.025782173578341006; -0.047987642924327965; 0.012941037641474092; 0.012683114649388528;
  -0.005735580598029695; -0.0025566554283528867; 0.0022439716729724902; -0.0000016069278055967023;
  -0.0007195602724384962; 0.00038368528211653075; 0.00014858529057523313; -0.0002575025844241345;
  0.000010516516589013085; 0.00010704437984797083; -0.000026857616951020925; -0.000027343122085837156;
  0.000013359453072911586; 0.0000008743109471899187; -0.0000034734935377236135; 0.0000029730937707811173;
  0.00000007730897350725859; -0.0000015226081183134465; 0.00000035439650702565454; 0.00000034721641708004544;
  -0.000000156777992181395; 0.00000001597117564142374; 0.000000026191084597761682; -0.0000000412642364536082;
  0.00000000525017666579665; 0.000000013846779127257504; -0.0000000042407651463261726; -0.0000000011214381722192403;
  0.0000000009630177044872672; -0.0000000008297450607062104; 0.000000000046122455004783566; 0.0000000003576823430110208;
  -0.0000000000907757881047847; -0.00000000004252529189232241; 0.00000000002282496251381922; -0.00000000001500790144405207;
  0.00000000000032659034610177583; 0.000000000007295753940304554; -0.0000000000017009200133584873; -0.0000000000008834786911597607;
  1.071428571428573; 2.8571428571428603; 0.16828647068643013; 0.057502161136164985;
  -0.03203008783569337; 0.043523275024128484; -0.009616305079248523; -0.012619704845750134;
  0.004184648193258537; -0.0016846702134097678; 0.0001597049883646572; 0.0012342854754038132;
  -0.00033169230042676557; -0.00003763139079733627; 0.0000293871199381628; -0.00008209128039577864;
  0.000018759881450431147; 0.000011892324072915832; -0.000003877231035252018; 0.000003937460829105651;
  -0.0000007457371684607852; -0.0000011184953658305656; 0.00000029610681981739095; -0.00000012167906259413099;
  0.000000014695526719803613; 0.00000007324478269927579; -0.000000017096869884160627; 0.00000000020254841710178964;
  0.0000000006463473721893494; -0.00000000378670756791167; 0.0000000007978843375402199; 0.00000000028684735501710284;
  -0.00000000009088794355304839; 0.0000000001599602107037905; -0.00000000003043440307246182; -0.00000000002481918204173537;
  0.000000000006186386337480583; -0.000000000005460328540576153; 0.0000000000009116881454699222; 0.000000000001443793834870746;
  -0.00000000000031979682339809855; 0.0000000000001377456107233683; -0.000000000000017548980404804913; -0.00000000000006776732080797868;
  0.000000000000013807465315144921; -0.0000000000000014283640939814787; -0.00000000000000012052479103353603; 0.000000000000002713437273478093;
  3.2142857142857135; 1.7142857142857155; 0.07903678771428974; 0.1366173149767163;
  -0.03969141252883478; -0.020858272775228486; 0.012785713513716018; -0.0015304452926222342;
  -0.0026860961779270214; 0.0025727967948578415; 0.00012933792468856846; -0.0010672611929158215;
  0.00017631060714322821; 0.0002543853817336151; -0.00008665378822567762; -0.0000175509535387775;
  0.000020609165004482387; -0.000014120643216517535; -0.0000009491933435471707; 0.000006902184538903503;
  -0.0000012724155661816913; -0.0000014306136345123808; 0.0000005173240008505617; -0.000000024499948617590265;
  -0.00000007862027115004884; 0.00000011318587727988834; -0.000000011763842326646961; -0.0000000340890320160421;
  0.000000008922197059503143; 0.0000000025465535675053267; -0.0000000017927325457597552; 0.0000000015154980434568787;
  -0.00000000007491277362752314; -0.0000000005792721981180947; 0.000000000130060693741436; 0.00000000005935877566052241;
  -0.000000000028397830014510552; 0.000000000019472346379288666; -0.0000000000006000876874936595; -0.00000000000814071846005595;
  0.0000000000017232806248046578; 0.0000000000008129442548295051; -0.00000000000035454098839564433; 0.00000000000025734879984388407;
  -0.000000000000013572878049033978; -0.00000000000009831926421151279; 0.000000000000020874616939410654; 0.000000000000007449563408315025;
  4.071428571428575; 0.0; 0.00000006322724023708452; 0.14320522971632055;
  -0.0000005148503847876886; -0.03772056059452712; 0.0000020329493263985066; 0.010371338418540009;
  -0.000005174771724651778; -0.0030037353111143452; 0.000009517882061984731; 0.0009290776740699179;
  -0.00001343064209680015; -0.00031157523046812936; 0.000015054672634519593; 0.00011315954046915567;
  -0.000013675252057396233; -0.00004261307306506259; 0.000010155784828362708; 0.000015084135681078397;
  -0.000006149622324017897; -0.000004177979538263383; 0.0000029763926410277504; 0.0000003852419163702205;
  -0.0000010851904935367706; 0.0000004744535623712308; 0.000000240313823300089; -0.0000003861576176707531;
  0.00000001642614265285391; 0.00000016888609158281005; -0.00000004388452711646857; -0.0000000430642915594861;
  0.000000021632876652369102; 0.0000000008596127307749394; -0.000000005524023121022141; 0.000000004945554965880659;
  0.00000000010091634256382262; -0.000000002470010178874344; 0.0000000005681277156204133; 0.00000000056787944978975;
  -0.00000000025410607959591806; 0.000000000016624164407707074; 0.000000000046644703702011107; -0.00000000006355635477354145;
  0.00000000000611385716549808; 0.00000000002306104707744195; -0.000000000006503348767932119; -0.0000000000027577319258741034;
  2.285714285714284; 2.7142857142857117; 0.12410484154273894; 0.09683576909893193;
  -0.04165652908689041; 0.01198936855409903; 0.0036526538741363935; -0.011172318272455838;
  0.0019884947090847505; 0.002422008464000822; -0.000811880832021083; 0.00011947807218339457;
  0.00007661221258448902; -0.00019656986254511444; 0.00003440681116374221; 0.00004062567887298936;
  -0.000012853329311204127; 0.000002948929132117167; 0.0000007441158694034462; -0.000003119620046854356;
  0.00000059665620246797; 0.0000004804195335296512; -0.0000001607811196642363; 0.00000008040456984613308;
  -0.0000000019846409239346557; -0.00000004141736567857662; 0.000000008816479631896511; 0.000000003275096178310768;
  -0.000000001427348577030702; 0.0000000015386133602424293; -0.00000000019681890502404568; -0.00000000041681355200961056;
  0.00000000009944923869365806; -0.000000000006889857030216713; -0.000000000006149335134005809; 0.000000000020328518595914995;
  -0.0000000000035548479897332604; -0.0000000000026922677441514693; 0.0000000000007741242322999192; -0.000000000000502876737461105;
  0.00000000000004426000300109987; 0.00000000000018321115180059407; -0.000000000000037800254141510683; -0.000000000000003602590337180926;
  0.0000000000000030821065149664467; -0.0000000000000068929495036811076; 0.0000000000000010950913530022178; 0.000000000000000999289618633788;
  4.142857142857141; 1.0714285714285727; 0.03581702260574623; 0.13033070898869087;
  -0.01748952518613066; -0.02825461296595318; 0.006366782130416584; 0.00546289314111226;
  -0.002022695897221356; -0.0007992834579721534; 0.0005782914408365745; 0.000007799108754771794;
  -0.0001458906964600212; 0.00005894995689385015; 0.000029757847056593704; -0.00003190296608356646;
  -0.000003306732042768052; 0.000011810304703756027; -0.0000008511576742040064; -0.000003370627982257106;
  0.0000007159043487099749; 0.0000006812622576410757; -0.0000002769615845958041; -0.00000004375692031760748;
  0.0000000699319119461411; -0.00000003695255142359431; -0.000000008724725951057621; 0.00000002031983556931971;
  -0.0000000018485178960971171; -0.000000005827954437630304; 0.0000000014483763747345385; 0.0000000008293002842197787;
  -0.0000000004351149992947319; 0.00000000011206000020056205; 0.00000000005928839924838688; -0.00000000010341927679721885;
  0.00000000000925708976270189; 0.00000000002974917699752115; -0.00000000000730723127580403; -0.00000000000330506934234675;
  0.0000000000018394294525083138; -0.000000000000866060052421986; -0.00000000000012411836550396808; 0.000000000000492221514612178;
  -0.00000000000007598520011362974; -0.00000000000009906280021114952; 0.000000000000030252316366745654; -0.000000000000000036888250775165356;
  1.0714285714285718; 3.4285714285714297; 0.14626020156729527; 0.042653083189622173;
  -0.02093643291536642; 0.034052606656297106; -0.007076514907812558; -0.007355963182969907;
  0.002198645316655364; -0.0012725871366003785; 0.00017883380009739794; 0.000590618443254531;
  -0.0001461101759548164; 0.000010654881683206533; 0.000004747946636966424; -0.000033695071070960486;
  0.000007284894947078154; 0.0000026195159984719925; -0.0000008929983785186893; 0.0000014779160277967036;
  -0.00000028021562296939713; -0.0000002536197178835136; 0.00000006473521693419931; -0.000000049088267405286814;
  0.00000000773706015720522; 0.00000001532090452736266; -0.0000000034160181205173906; 0.0000000010243248597348187;
  -0.00000000008693381456967997; -0.0000000007240512801567554; 0.00000000014667142304351427; 0.0000000000070718802592705234;
  -0.000000000006129025611735332; 0.000000000028480108687779333; -0.000000000005307315369819296; -0.0000000000020715600409212628;
  0.0000000000005544639256080964; -0.000000000000948714145073659; 0.0000000000001622791851572464; 0.00000000000013189114539534868;
  -0.000000000000029066975615754194; 0.00000000000002642278167333207; -0.000000000000004054360268894262; -0.000000000000006054306650561866;
  0.0000000000000012050771661700882; -0.0000000000000005747962636822879; 0.00000000000000007204328321570464; 0.0000000000000002307696953697155;
  3.2142857142857166; 2.428571428571429; 0.08834636622048801; 0.10978179311908559;
  -0.03471507341043614; -0.006471853169551422; 0.0075204406155747845; -0.004671372505896795;
  -0.0005350221502500292; 0.0021487012480730064; -0.00029122605079690814; -0.0004679138561510438;
  0.0001338974651493084; 0.00002502833659627934; -0.000026125185149730266; 0.00002076202438584657;
  0.00000014240099523119385; -0.000008090439073881185; 0.0000015048146214082082; 0.0000012242818408025178;
  -0.0000004457887191955639; 0.00000011126614397371681; 0.00000003965909370274065; -0.00000009985865424861908;
  0.00000001378167022937032; 0.00000002061693817743694; -0.000000005647935406275928; 0.00000000002002563925491996;
  0.0000000006801602396252721; -0.0000000010715218070022743; 0.00000000012277697414947344; 0.0000000002531905532476964;
  -0.00000000006132122267674705; -0.0000000000053970163733009834; 0.00000000000765248951489962; -0.000000000010865003907676834;
  0.0000000000012161761045627153; 0.000000000002557132450126761; -0.0000000000005946053540445003; -0.000000000000034213437328261683;
  0.00000000000006441743307491443; -0.00000000000010559148559766814; 0.000000000000013111285413793819; 0.000000000000021717230356740305;
  -0.000000000000005125619554696285; 0.0000000000000003756580152724471; 0.0000000000000003887484200485892; -0.0000000000000009524335767659134;
  0.0; 4.214285714285708; 0.1303871395024866; 0.0;
  0.0; 0.029401848431698584; -0.006479349683185598; 0.0;
  0.0; -0.0013973450826585915; 0.000295269131705057; 0.0;
  0.0; 0.00006119863961776982; -0.0000124535263433901; 0.0;
  0.0; -0.000002490263273240051; 0.0000004897113515410468; 0.0;
  0.0; 0.00000009477327118157132; -0.000000018061941740885075; 0.0;
  0.0; -0.000000003391834205581567; 0.0000000006279638838461771; 0.0;
  0.0; 0.00000000011467922781557739; -0.000000000020667550333953305; 0.0;
  0.0; -0.000000000003677368759188955; 0.0000000000006462584632428414; 0.0;
  0.0; 0.00000000000011221775880098971; -0.000000000000019260085048741243; 0.0;
  0.0; -0.000000000000003268448160437025; 0.0000000000000005485910658328085; 0.0;
  0.0; 0.0000000000000000910979684488619; -0.00000000000000001497074534530178; 0.0;
  2.4285714285714266; 3.642857142857145; 0.10763067409081274; 0.06825806025127698;
  -0.025468835181786026; 0.012673677499102778; 0.0003906079545419879; -0.006257663158305979;
  0.001149628619855795; 0.0007337169863487059; -0.00025486850481788584; 0.00014392310956364782;
  -0.0000025483693264849695; -0.00006191799395239195; 0.000011832998404259515; 0.000005244168955737823;
  -0.000002024329763906214; 0.0000017360663718605277; -0.00000014813179860598246; -0.0000005214965011494721;
  0.00000010763136966138574; 0.00000001556624701491682; -0.00000001131061128917999; 0.000000018321410926496613;
  -0.0000000024400835607266656; -0.0000000034287565449550645; 0.0000000007910097061966431; -0.00000000018425915292167198;
  -0.000000000023410735818876945; 0.00000000015303195398548269; -0.00000000002524021648624047; -0.000000000014586844569798717;
  0.0000000000042094151327306435; -0.000000000003421367615479397; 0.00000000000031922471343817404; 0.0000000000009451977779840936;
  -0.00000000000018134760872216907; -0.0000000000000043532623537351574; 0.000000000000011703621653800108; -0.000000000000030444681959680054;
  0.0000000000000044230421499058634; 0.0000000000000037532342499068226; -0.0000000000000008772799250339477; 0.000000000000000521717380667784;
  -0.00000000000000003732983832293122; -0.0000000000000001737577841133932; 0.000000000000000030451210803064085; 0.0000000000000000032957343180252057;
  4.714285714285708; 0.0; 0.0000000002228572250517682; 0.12257529703447484;
  -0.000000002101225264773812; -0.027330776372391567; 0.000000009682919023167619; 0.006269791578228097;
  -0.000000029031214372487075; -0.001484541664265329; 0.00000006358926008070706; 0.00036438099093993675;
  -0.00000010829869040319549; -0.00009330177435203398; 0.00000014898723632097603; 0.000025156743668455244;
  -0.00000016973420268448306; -0.000007226943697746293; 0.00000016279707265503932; 0.000002228283440944308;
  -0.00000013283060250237807; -0.000000728404687839302; 0.00000009268086782837702; 0.0000002411248746310509;
  -0.00000005528972521609847; -0.00000007424124799868976; 0.00000002799511565077638; 0.000000018144930036652438;
  -0.00000001179803824094352; -0.0000000017383286861253056; 0.000000003946315355014305; -0.000000001421421706416981;
  -0.000000000907469314835567; 0.000000001125242230754999; 0.00000000004146928400845601; -0.0000000004854114583927867;
  0.00000000008376132490033483; 0.00000000013683836154078902; -0.00000000004848267793286092; -0.000000000017742630509468647;
  0.000000000015242091691459615; -0.000000000005599424420647495; -0.0000000000023372897184020034; 0.000000000004413991706394966;
  -0.0000000000004022323963666843; -0.000000000001448513678455799; 0.00000000000038486619621967; 0.00000000000021951960317242264;
  4.500000000000001; 2.142857142857143; 0.05098935729880773; 0.10263845807779322;
  -0.019025109641584433; -0.013892772599516833; 0.004853409089357596; 0.0006471107091420396;
  -0.0009523769701469232; 0.00038707471602663203; 0.0001308665481803137; -0.00017406956904495295;
  -0.0000038114864186122802; 0.00004632401085856507; -0.000004816373914163484; -0.000008740336307187867;
  0.0000019302505558619486; 0.0000009509439338332501; -0.0000004580041465360089; 0.00000008120935345137354;
  0.00000006773069925781738; -0.00000007443301500034553; -0.0000000012566635964105233; 0.000000021720400270971693;
  -0.000000002823999674109475; -0.000000003748351937325503; 0.0000000009887465678437998; 0.00000000019976855334746798;
  -0.00000000018419760149673307; 0.00000000011240781567420407; 0.000000000011573789945990929; -0.00000000004441351111670834;
  0.00000000000492583162719604; 0.000000000008353600786038487; -0.000000000001979932394429187; -0.0000000000004666307384141895;
  0.0000000000003510518984526772; -0.0000000000002365941399291534; -0.000000000000011865399034798792; 0.00000000000008656114444250002;
  -0.000000000000011807309066692905; -0.000000000000013421595261845047; 0.000000000000003623772855953463; -0.00000000000000008625891927125023;
  -0.0000000000000004461437453707827; 0.0000000000000005756697952470446; -0.000000000000000034777079010245666; -0.00000000000000014074844071196645;
  5.214285714285715; 1.0714285714285712; 0.02249440085106035; 0.10540567811886482;
  -0.008715155763490544; -0.01905376368206439; 0.0025341645420713667; 0.0032837565413536608;
  -0.0006535944172398712; -0.0005225716238564924; 0.00015698266113086024; 0.00007068047218467018;
  -0.0000356915810978443; -0.000005668904355798108; 0.000007683204737467135; -0.00000096006847962991;
  -0.00000154271097264754; 0.000000697991610860203; 0.0000002771948007434567; -0.0000002566386480046963;
  -0.00000003947375487741632; 0.00000007626693239917687; 0.00000000206944116615215; -0.000000019749123855898848;
  0.0000000013678766924186856; 0.000000004453342472725427; -0.0000000007384171164501521; -0.0000000008229097251506264;
  0.00000000024626955966747393; 0.0000000000967238688416708; -0.00000000006315285911018784; 0.000000000007814799302598896;
  0.00000000001218673208798154; -0.00000000000930782501162184; -0.0000000000012956141969138428; 0.0000000000034577058418954183;
  -0.0000000000002030993716689055; -0.0000000000008627627171592621; 0.00000000000015891596929551568; 0.00000000000013984354873907833;
  -0.000000000000050073844542269137; -0.000000000000003861959076359294; 0.000000000000009804554966450278; -0.0000000000000066055642974202245;
  -0.0000000000000007740282545605837; 0.0000000000000026476550767615814; -0.0000000000000002665251999737503; -0.0000000000000005791590689695038;
  1.5714285714285716; 4.8571428571428505; 0.1039039870455553; 0.032421651640643166;
  -0.011602200491212075; 0.0171295306395268; -0.002471380310234836; -0.002985940259726711;
  0.0006551064781294944; -0.00028899438778185404; 0.00001912012340259929; 0.000129064273377471;
  -0.000023307509114345387; -0.00000267602790671875; 0.0000015027041719603272; -0.000003883728418126129;
  0.0000005949408854108519; 0.0000004229088203986784; -0.0000000958706803459506; 0.00000008236113566173236;
  -0.000000009832701637193986; -0.000000019261304866904414; 0.0000000035534318558868264; -0.0000000008669068694737965;
  0.000000000006917596973863983; 0.0000000006116474423997586; -0.00000000009890722657925057; -0.00000000002130885898076538;
  0.000000000006924288092498606; -0.000000000015039317457480804; 0.0000000000021397270098555643; 0.0000000000016156879541366173;
  -0.00000000000032521187267155297; 0.00000000000028098926422426195; -0.00000000000003298434796387453; -0.00000000000005970524847482889;
  0.000000000000010240882153938006; -0.0000000000000031714165642854305; 0.00000000000000016527887092220902; 0.0000000000000016608306078896863;
  -0.0000000000000002561804810445275; -0.000000000000000025394020272836667; 0.00000000000000001139480722511277; -0.00000000000000003766205252446684;
  0.000000000000000005270893904810625; 0.0000000000000000027839084901382083; -0.0000000000000000005596181151169783; 0.0000000000000000006987140456647607;
  3.9285714285714257; 3.714285714285713; 0.07299593533208008; 0.07460939686724243;
  -0.019298258023970977; -0.00009304218541507833; 0.002473064501978404; -0.002564629906933874;
  0.000037919503153340655; 0.0006551372082998619; -0.00009433360248352065; -0.00007498364012113784;
  0.000021666451604219904; -0.000004070668011211888; -0.0000019680747629957804; 0.0000035000528307892576;
  -0.00000026700945496468337; -0.000000677013588993103; 0.00000012560464423852064; 0.00000003784820395954578;
  -0.00000001907962631296322; 0.000000013731706789291337; 0.0000000000709025845262385; -0.000000004185402293865382;
  0.0000000005918728175524958; 0.00000000044501684048250305; -0.0000000001238662552817194; 0.000000000039789516367237254;
  0.000000000006543730174241309; -0.00000000002173202079454596; 0.000000000002491401357596027; 0.0000000000030401423010016064;
  -0.000000000000671922832905488; 0.00000000000007131041879582715; 0.00000000000005164534447178968; -0.0000000000001030721244348894;
  0.000000000000010140128101799616; 0.000000000000016681202254153537; -0.000000000000003280312309428971; -0.000000000000000013833676060095442;
  0.00000000000000028372956720506523; -0.000000000000000467667212665698; 0.00000000000000004286107912221947; 0.00000000000000007972450476279517;
  -0.000000000000000014856456087943096; -0.0000000000000000004509040747576181; 0.0000000000000000012571621119376692; -0.000000000000000002070179389574172;
  5.78571428571429; 0.0; 0.0000000000000028987702606075735; 0.09904152964008271;
  -0.000000000000033542913015601947; -0.017672818739731092; 0.0000000000001911709407582324; 0.003208350211218687;
  -0.0000000000007150116866284956; -0.0005931859405942172; 0.000000000001972841194510462; 0.00011182707968107164;
  -0.000000000004279713518358532; -0.00002152543673850767; 0.000000000007596119482473687; 0.000004237649054383803;
  -0.000000000011334075282109177; -0.0000008549685523669575; 0.00000000001449490044814665; 0.0000001772386782205423;
  -0.000000000016117617180164302; -0.000000037885288932167154; 0.000000000015751405504560803; 0.00000000839095583454214;
  -0.00000000001363918448502761; -0.0000000019386152928256324; 0.000000000010526836502659356; 0.0000000004708863932772187;
  -0.000000000007271705207967274; -0.00000000012089212918566913; 0.000000000004506453171511415; 0.000000000032651560797532095;
  -0.000000000002506846037913172; -0.000000000009069396342864132; 0.0000000000012496802202661363; 0.0000000000024776718982727315;
  -0.0000000000005556996076535521; -0.000000000000619494747562971; 0.0000000000002183821042556496; 0.00000000000012294974584747972;
  -0.00000000000007450493186133761; -0.000000000000009669195095971965; 0.000000000000021268214437066113; -0.000000000000006700654564935617;
  -0.000000000000004623512403698163; 0.000000000000004613073136757775; 0.0000000000000004983733933806878; -0.00000000000000181720623485897;
  5.57142857142857; 2.714285714285717; 0.04106505249971188; 0.08205558748602079;
  -0.012137395786961824; -0.008879092747155072; 0.002457186571083048; 0.0003580035270252989;
  -0.0003872798809548003; 0.00014333017385913203; 0.00004477733306995597; -0.00005268455225300193;
  -0.0000020779037629553074; 0.000011463828144227786; -0.0000006947785711479344; -0.0000018484409694152012;
  0.00000026617600802317264; 0.00000020584463875139142; -0.000000057370220663991; -0.000000005221367065647871;
  0.000000008730176999559698; -0.000000004674443272496604; -0.0000000007914223003521918; 0.0000000015136998312933762;
  -0.00000000003858370100281118; -0.00000000029288744951360454; 0.000000000035234735733725873; 0.00000000003713814359596083;
  -0.000000000008757012269722507; -0.000000000001486493023912798; 0.000000000001359937978137825; -0.0000000000007267457982530376;
  -0.00000000000010565077002143508; 0.0000000000002458993469455113; -0.000000000000012983896860073018; -0.000000000000044562309155292977;
  0.0000000000000067099746847449695; 0.000000000000004425691912256039; -0.0000000000000013764061643123461; 0.00000000000000018801048410969524;
  0.00000000000000015461980170001374; -0.0000000000000001828651901373802; 0.00000000000000000186046101822372; 0.000000000000000041112754204138516;
  -0.000000000000000005085091996356309; -0.000000000000000004880133909469264; 0.0000000000000000012022443694858942; -0.000000000000000000011004013362316253;
  3.2857142857142883; 5.285714285714281; 0.07706292326481867; 0.04671118937621672;
  -0.012609493763089648; 0.006754733823720081; 0.00007186359642488429; -0.0022551334778232023;
  0.00030225285184731304; 0.00018342668154022965; -0.000047719539319564595; 0.00002741179649903976;
  -0.0000002276621780991201; -0.000008504864882036228; 0.0000011710954618043694; 0.0000005787055896772631;
  -0.00000016038585945910036; 0.00000011809361326183306; -0.000000004976063370837671; -0.000000029743408313439154;
  0.000000004337916385578452; 0.000000001319283907849628; -0.0000000004607465337715596; 0.0000000004959263442037147;
  -0.00000000003685635550041195; -0.0000000000933421174567572; 0.000000000014744370643104274; 0.0000000000009302248951108467;
  -0.000000000001026543190536562; 0.000000000001900174413514138; -0.0000000000001896662820278759; -0.00000000000024966301483159934;
  0.00000000000004401133850719843; -0.00000000000001031084035125285; -0.0000000000000011803197226212212; 0.0000000000000063637661988155454;
  -0.0000000000000007642464970407716; -0.0000000000000005129228634790347; 0.00000000000000010891684986606413; -0.00000000000000007098439906638866;
  0.0000000000000000032814310813465566; 0.00000000000000001794252297497465; -0.0000000000000000024859644837051182; -0.0000000000000000005314312138502733;
  0.0000000000000000001978804169160786; -0.0000000000000000002910756055670334; 0.000000000000000000027022134946568718; 0.00000000000000000004017119479349071;
  0.0; 6.0714285714285685; 0.09171300903754816; 0.0;
  0.0; 0.014721200210999777; -0.002334293470763843; 0.0;
  0.0; -0.0003658027590033477; 0.00005667407412175941; 0.0;
  0.0; 0.000008684066448494861; -0.0000013164616567278324; 0.0;
  0.0; -0.00000019750386647066022; 0.00000002933275971756325; 0.0;
  0.0; 0.000000004313802453910605; -0.0000000006283632494783458; 0.0;
  0.0; -0.00000000009067997596219622; 0.000000000012967708760835315; 0.0;
  0.0; 0.0000000000018380705362609428; -0.0000000000002582849700970852; 0.0;
  0.0; -0.000000000000035988238565723497; 0.000000000000004973118779220511; 0.0;
  0.0; 0.0000000000000006816827200536617; -0.00000000000000009270342622639624; 0.0;
  0.0; -0.000000000000000012509525199305173; 0.0000000000000000016752737516329164; 0.0;
  0.0; 0.0000000000000000002226876455882625; -0.000000000000000000029385601609470934; 0.0;
  6.571428571428571; 1.3571428571428577; 0.017569560917718635; 0.08312422296175916;
  -0.005291338308098549; -0.011799428607129745; 0.0011885805686814523; 0.0015959813032272;
  -0.00023557291638081414; -0.00020101477152540824; 0.00004333213166113617; 0.000022339505228293765;
  -0.000007545276690158493; -0.000001838233748825667; 0.0000012521231193092218; -0.000000006555028360474082;
  -0.000000197673445981194; 0.00000005199991481321904; 0.000000029361281096284006; -0.000000016721898073693345;
  -0.000000003992471119390258; 0.000000004008753564528963; 0.00000000046308179088539994; -0.0000000008405971948077548;
  -0.000000000034808776510915865; 0.00000000016121867522188771; -0.0000000000025902714782794267; -0.000000000028599888564258337;
  0.0000000000020025270816881404; 0.0000000000046521258559631635; -0.0000000000006079418322050694; -0.0000000000006698485040925412;
  0.0000000000001444585508711821; 0.00000000000007663995433262677; -0.000000000000029668231222838165; -0.000000000000003729546498737037;
  0.000000000000005346186359903847; -0.0000000000000013961738616726228; -0.0000000000000008176286616126939; 0.0000000000000006276516303017991;
  0.00000000000000009248578049209145; -0.00000000000000017039527333614738; -0.000000000000000002138576686296429; 0.00000000000000003665723209536166;
  -0.0000000000000000027317310335927686; -0.000000000000000006437405231480119; 0.0000000000000000010321339564971584; 0.0000000000000000008502787116842224;
  6.2857142857142865; 0.0; 0.0000000000000000069332424671943505; 0.0909394362625478;
  -0.00000000000000008716076244472898; -0.014859460205088493; 0.0000000000000005409344071853879; 0.0024628850265798813;
  -0.0000000000000022086655789565682; -0.0004143542603709846; 0.000000000000006671053187413665; 0.0000708137335902969;
  -0.000000000000015889467496771732; -0.00001230425459292409; 0.000000000000031068533216479077; 0.0000021757650931705614;
  -0.000000000000051256701593782755; -0.00000039199518159330905; 0.00000000000007277911205753885; 0.00000007205115492541677;
  -0.00000000000009026933394842002; -0.000000013532842716354774; 0.0000000000000989256259807917; 0.0000000026024855726197915;
  -0.00000000000009664525209132195; -0.0000000005137523683321409; 0.00000000000008475980262268153; 0.00000000010446917138751571;
  -0.00000000000006709702309359856; -0.000000000021986306873092436; 0.00000000000004814184485223604; 0.000000000004818638830682801;
  -0.000000000000031401181177965644; -0.0000000000011069706750170712; 0.000000000000018654626033300644; 0.0000000000002674328193923487;
  -0.000000000000010100760961671747; -0.0000000000000675336021536781; 0.000000000000004981763493340515; 0.000000000000017451567603418982;
  -0.0000000000000022329664206809088; -0.0000000000000044381016462359184; 0.0000000000000009054025436653771; 0.0000000000000010445071315778222;
  -0.0000000000000003293462173674862; -0.00000000000000020260683354792868; 0.00000000000000010588851634430852; 0.00000000000000002082013967615723;
  5.214285714285712; 4.42857142857143; 0.05412986497290431; 0.062378661206815386;
  -0.012000449742779704; -0.0015771038212858864; 0.0014595917630380443; -0.0010103424206574232;
  -0.00005643487541055161; 0.00025427432845883335; -0.00001962608618266723; -0.000032795350458453585;
  0.000005413737675951618; 0.0000014582093819660605; -0.0000007149681453626404; 0.00000040556870537684513;
  0.00000003154299758192833; -0.0000001161922821949144; 0.00000000898203063413402; 0.00000001515015847988139;
  -0.0000000025076250267640222; -0.0000000005738971050610909; 0.0000000003103796794587087; -0.00000000021049969127872014;
  -0.000000000007817494611299562; 0.000000000053993465035868706; -0.000000000005083852066347545; -0.000000000006069554807330458;
  0.0000000000011456453554623732; 0.000000000000026019984027574613; -0.00000000000011066268377732601; 0.00000000000012290098397904398;
  -0.0000000000000032456957526447783; -0.000000000000023571097263447968; 0.0000000000000029000476115344507; 0.000000000000001797405903473762;
  -0.0000000000000004607106646186103; 0.00000000000000015951074638278168; 0.000000000000000023181573265148358; -0.00000000000000006542782482715776;
  0.000000000000000005271949752037085; 0.000000000000000008314460305145657; -0.000000000000000001384984419226808; -0.00000000000000000012733528086945283;
  0.00000000000000000013198488885123584; -0.00000000000000000014447574677895942; 0.0000000000000000000051778485892182736; 0.00000000000000000002692441778090746;
  1.5714285714285712; 6.357142857142851; 0.08290028747062145; 0.02003798202047293;
  -0.005775132075940314; 0.011384711476125912; -0.001450842681629155; -0.001214903285907403;
  0.00022114264824985784; -0.0001682423671812014; 0.000016896021506585208; 0.00003672437094474086;
  -0.000005692586701741442; 0.0000012488875904696788; -0.0000000037237643352354218; -0.0000008327738990885018;
  0.00000011553591063017915; 0.00000002383703141239767; -0.000000006574313169058107; 0.000000015209354465720388;
  -0.000000001892623994509785; -0.0000000013207994598927752; 0.00000000023038514736531244; -0.0000000002204262698724807;
  0.000000000023510709901939613; 0.000000000036834964417930374; -0.000000000005527569616205303; 0.000000000002180302139852838;
  -0.00000000000014831336949159913; -0.0000000000007879390448957814; 0.00000000000010737034448943821; 0.00000000000000010529504612007944;
  -0.0000000000000026322775883863352; 0.000000000000014027328361583866; -0.0000000000000017575222475595767; -0.0000000000000006768093681619866;
  0.00000000000000012841463796052625; -0.0000000000000002107000918471279; 0.000000000000000024030803621493103; 0.000000000000000021284368225538095;
  -0.000000000000000003249427361258098; 0.000000000000000002577471147256154; -0.000000000000000000253920833195913; -0.0000000000000000004677606088942731;
  0.00000000000000000006426902854648422; -0.000000000000000000021734071506638855; 0.0000000000000000000013418225495407341; 0.000000000000000000008486068552134992
]%dec.

