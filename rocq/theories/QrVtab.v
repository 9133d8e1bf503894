(** Generated by tools/gen_vtab.py from coding/qr.go:478-520 (var vtab); entry 0 is the zero value.  Do not edit. *)
From Coq Require Import NArith List.
Import ListNotations.
Open Scope nat_scope.

(** types version and level (coding/qr.go:465-476). *)
Record version := { apos : nat; astride : nat; vbytes : nat; pattern : N; levels : list (nat * nat) }.
Definition mkv a s b p l := {| apos := a; astride := s; vbytes := b; pattern := p; levels := l |}.
Definition vtab : list version := [
  mkv 0 0 0 0%N [(0, 0); (0, 0); (0, 0); (0, 0)];
  mkv 100 100 26 0x0%N [(1, 7); (1, 10); (1, 13); (1, 17)];
  mkv 16 100 44 0x0%N [(1, 10); (1, 16); (1, 22); (1, 28)];
  mkv 20 100 70 0x0%N [(1, 15); (1, 26); (2, 18); (2, 22)];
  mkv 24 100 100 0x0%N [(1, 20); (2, 18); (2, 26); (4, 16)];
  mkv 28 100 134 0x0%N [(1, 26); (2, 24); (4, 18); (4, 22)];
  mkv 32 100 172 0x0%N [(2, 18); (4, 16); (4, 24); (4, 28)];
  mkv 20 16 196 0x7c94%N [(2, 20); (4, 18); (6, 18); (5, 26)];
  mkv 22 18 242 0x85bc%N [(2, 24); (4, 22); (6, 22); (6, 26)];
  mkv 24 20 292 0x9a99%N [(2, 30); (5, 22); (8, 20); (8, 24)];
  mkv 26 22 346 0xa4d3%N [(4, 18); (5, 26); (8, 24); (8, 28)];
  mkv 28 24 404 0xbbf6%N [(4, 20); (5, 30); (8, 28); (11, 24)];
  mkv 30 26 466 0xc762%N [(4, 24); (8, 22); (10, 26); (11, 28)];
  mkv 32 28 532 0xd847%N [(4, 26); (9, 22); (12, 24); (16, 22)];
  mkv 24 20 581 0xe60d%N [(4, 30); (9, 24); (16, 20); (16, 24)];
  mkv 24 22 655 0xf928%N [(6, 22); (10, 24); (12, 30); (18, 24)];
  mkv 24 24 733 0x10b78%N [(6, 24); (10, 28); (17, 24); (16, 30)];
  mkv 28 24 815 0x1145d%N [(6, 28); (11, 28); (16, 28); (19, 28)];
  mkv 28 26 901 0x12a17%N [(6, 30); (13, 26); (18, 28); (21, 28)];
  mkv 28 28 991 0x13532%N [(7, 28); (14, 26); (21, 26); (25, 26)];
  mkv 32 28 1085 0x149a6%N [(8, 28); (16, 26); (20, 30); (25, 28)];
  mkv 26 22 1156 0x15683%N [(8, 28); (17, 26); (23, 28); (25, 30)];
  mkv 24 24 1258 0x168c9%N [(9, 28); (17, 28); (23, 30); (34, 24)];
  mkv 28 24 1364 0x177ec%N [(9, 30); (18, 28); (25, 30); (30, 30)];
  mkv 26 26 1474 0x18ec4%N [(10, 30); (20, 28); (27, 30); (32, 30)];
  mkv 30 26 1588 0x191e1%N [(12, 26); (21, 28); (29, 30); (35, 30)];
  mkv 28 28 1706 0x1afab%N [(12, 28); (23, 28); (34, 28); (37, 30)];
  mkv 32 28 1828 0x1b08e%N [(12, 30); (25, 28); (34, 30); (40, 30)];
  mkv 24 24 1921 0x1cc1a%N [(13, 30); (26, 28); (35, 30); (42, 30)];
  mkv 28 24 2051 0x1d33f%N [(14, 30); (28, 28); (38, 30); (45, 30)];
  mkv 24 26 2185 0x1ed75%N [(15, 30); (29, 28); (40, 30); (48, 30)];
  mkv 28 26 2323 0x1f250%N [(16, 30); (31, 28); (43, 30); (51, 30)];
  mkv 32 26 2465 0x209d5%N [(17, 30); (33, 28); (45, 30); (54, 30)];
  mkv 28 28 2611 0x216f0%N [(18, 30); (35, 28); (48, 30); (57, 30)];
  mkv 32 28 2761 0x228ba%N [(19, 30); (37, 28); (51, 30); (60, 30)];
  mkv 28 24 2876 0x2379f%N [(19, 30); (38, 28); (53, 30); (63, 30)];
  mkv 22 26 3034 0x24b0b%N [(20, 30); (40, 28); (56, 30); (66, 30)];
  mkv 26 26 3196 0x2542e%N [(21, 30); (43, 28); (59, 30); (70, 30)];
  mkv 30 26 3362 0x26a64%N [(22, 30); (45, 28); (62, 30); (74, 30)];
  mkv 24 28 3532 0x27541%N [(24, 30); (47, 28); (65, 30); (77, 30)];
  mkv 28 28 3706 0x28c69%N [(25, 30); (49, 28); (68, 30); (81, 30)]
].
