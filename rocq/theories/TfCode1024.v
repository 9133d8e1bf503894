(** Generated by tools/gen_tf.py from crypter/crypter1024.go: one item per Go statement,
    in order; the trailing comment is the Go line number.  Do not edit. *)
From Coq Require Import ZArith List.
From Verif Require Import TfLang.
Import ListNotations.
Open Scope Z_scope.

Local Notation b0 := (B 0). Local Notation b1 := (B 1). Local Notation b2 := (B 2). Local Notation b3 := (B 3). Local Notation b4 := (B 4). Local Notation b5 := (B 5). Local Notation b6 := (B 6). Local Notation b7 := (B 7). Local Notation b8 := (B 8). Local Notation b9 := (B 9). Local Notation b10 := (B 10). Local Notation b11 := (B 11). Local Notation b12 := (B 12). Local Notation b13 := (B 13). Local Notation b14 := (B 14). Local Notation b15 := (B 15).
Local Notation k0 := (K 0). Local Notation k1 := (K 1). Local Notation k2 := (K 2). Local Notation k3 := (K 3). Local Notation k4 := (K 4). Local Notation k5 := (K 5). Local Notation k6 := (K 6). Local Notation k7 := (K 7). Local Notation k8 := (K 8). Local Notation k9 := (K 9). Local Notation k10 := (K 10). Local Notation k11 := (K 11). Local Notation k12 := (K 12). Local Notation k13 := (K 13). Local Notation k14 := (K 14). Local Notation k15 := (K 15). Local Notation k16 := (K 16).
Local Notation t0 := (T 0). Local Notation t1 := (T 1). Local Notation t2 := (T 2).
Local Notation tmp := Tmp.
Local Open Scope tf_scope.

(** crypter/crypter1024.go:66-1565, func (tf *threefish1024) encrypt. *)
Definition encrypt1024_body : list stmt := [
  b0 <- EV (In 0); (* 68 *)
  b1 <- EV (In 1); (* 69 *)
  b2 <- EV (In 2); (* 70 *)
  b3 <- EV (In 3); (* 71 *)
  b4 <- EV (In 4); (* 72 *)
  b5 <- EV (In 5); (* 73 *)
  b6 <- EV (In 6); (* 74 *)
  b7 <- EV (In 7); (* 75 *)
  b8 <- EV (In 8); (* 76 *)
  b9 <- EV (In 9); (* 77 *)
  b10 <- EV (In 10); (* 78 *)
  b11 <- EV (In 11); (* 79 *)
  b12 <- EV (In 12); (* 80 *)
  b13 <- EV (In 13); (* 81 *)
  b14 <- EV (In 14); (* 82 *)
  b15 <- EV (In 15); (* 83 *)
  k0 <- EV (XK 0); (* 85 *)
  k1 <- EV (XK 1); (* 86 *)
  k2 <- EV (XK 2); (* 87 *)
  k3 <- EV (XK 3); (* 88 *)
  k4 <- EV (XK 4); (* 89 *)
  k5 <- EV (XK 5); (* 90 *)
  k6 <- EV (XK 6); (* 91 *)
  k7 <- EV (XK 7); (* 92 *)
  k8 <- EV (XK 8); (* 94 *)
  k9 <- EV (XK 9); (* 95 *)
  k10 <- EV (XK 10); (* 96 *)
  k11 <- EV (XK 11); (* 97 *)
  k12 <- EV (XK 12); (* 98 *)
  k13 <- EV (XK 13); (* 99 *)
  k14 <- EV (XK 14); (* 100 *)
  k15 <- EV (XK 15); (* 101 *)
  k16 <- EV (XK 16); (* 102 *)
  t0 <- EV (XT 0); (* 104 *)
  t1 <- EV (XT 1); (* 105 *)
  t2 <- EV (XT 2); (* 106 *)
  b1 += k1; (* 108 *)
  b0 += b1 [+] k0; (* 109 *)
  b1 <- ((b1 [<<] 24) [|] (b1 [>>] (64 - 24))) [^] b0; (* 110 *)
  b3 += k3; (* 111 *)
  b2 += b3 [+] k2; (* 112 *)
  b3 <- ((b3 [<<] 13) [|] (b3 [>>] (64 - 13))) [^] b2; (* 113 *)
  b5 += k5; (* 114 *)
  b4 += b5 [+] k4; (* 115 *)
  b5 <- ((b5 [<<] 8) [|] (b5 [>>] (64 - 8))) [^] b4; (* 116 *)
  b7 += k7; (* 117 *)
  b6 += b7 [+] k6; (* 118 *)
  b7 <- ((b7 [<<] 47) [|] (b7 [>>] (64 - 47))) [^] b6; (* 119 *)
  b9 += k9; (* 120 *)
  b8 += b9 [+] k8; (* 121 *)
  b9 <- ((b9 [<<] 8) [|] (b9 [>>] (64 - 8))) [^] b8; (* 122 *)
  b11 += k11; (* 123 *)
  b10 += b11 [+] k10; (* 124 *)
  b11 <- ((b11 [<<] 17) [|] (b11 [>>] (64 - 17))) [^] b10; (* 125 *)
  b13 += k13 [+] t0; (* 126 *)
  b12 += b13 [+] k12; (* 127 *)
  b13 <- ((b13 [<<] 22) [|] (b13 [>>] (64 - 22))) [^] b12; (* 128 *)
  b15 += k15; (* 129 *)
  b14 += b15 [+] k14 [+] t1; (* 130 *)
  b15 <- ((b15 [<<] 37) [|] (b15 [>>] (64 - 37))) [^] b14; (* 131 *)
  b0 += b9; (* 132 *)
  b9 <- ((b9 [<<] 38) [|] (b9 [>>] (64 - 38))) [^] b0; (* 133 *)
  b2 += b13; (* 134 *)
  b13 <- ((b13 [<<] 19) [|] (b13 [>>] (64 - 19))) [^] b2; (* 135 *)
  b6 += b11; (* 136 *)
  b11 <- ((b11 [<<] 10) [|] (b11 [>>] (64 - 10))) [^] b6; (* 137 *)
  b4 += b15; (* 138 *)
  b15 <- ((b15 [<<] 55) [|] (b15 [>>] (64 - 55))) [^] b4; (* 139 *)
  b10 += b7; (* 140 *)
  b7 <- ((b7 [<<] 49) [|] (b7 [>>] (64 - 49))) [^] b10; (* 141 *)
  b12 += b3; (* 142 *)
  b3 <- ((b3 [<<] 18) [|] (b3 [>>] (64 - 18))) [^] b12; (* 143 *)
  b14 += b5; (* 144 *)
  b5 <- ((b5 [<<] 23) [|] (b5 [>>] (64 - 23))) [^] b14; (* 145 *)
  b8 += b1; (* 146 *)
  b1 <- ((b1 [<<] 52) [|] (b1 [>>] (64 - 52))) [^] b8; (* 147 *)
  b0 += b7; (* 148 *)
  b7 <- ((b7 [<<] 33) [|] (b7 [>>] (64 - 33))) [^] b0; (* 149 *)
  b2 += b5; (* 150 *)
  b5 <- ((b5 [<<] 4) [|] (b5 [>>] (64 - 4))) [^] b2; (* 151 *)
  b4 += b3; (* 152 *)
  b3 <- ((b3 [<<] 51) [|] (b3 [>>] (64 - 51))) [^] b4; (* 153 *)
  b6 += b1; (* 154 *)
  b1 <- ((b1 [<<] 13) [|] (b1 [>>] (64 - 13))) [^] b6; (* 155 *)
  b12 += b15; (* 156 *)
  b15 <- ((b15 [<<] 34) [|] (b15 [>>] (64 - 34))) [^] b12; (* 157 *)
  b14 += b13; (* 158 *)
  b13 <- ((b13 [<<] 41) [|] (b13 [>>] (64 - 41))) [^] b14; (* 159 *)
  b8 += b11; (* 160 *)
  b11 <- ((b11 [<<] 59) [|] (b11 [>>] (64 - 59))) [^] b8; (* 161 *)
  b10 += b9; (* 162 *)
  b9 <- ((b9 [<<] 17) [|] (b9 [>>] (64 - 17))) [^] b10; (* 163 *)
  b0 += b15; (* 164 *)
  b15 <- ((b15 [<<] 5) [|] (b15 [>>] (64 - 5))) [^] b0; (* 165 *)
  b2 += b11; (* 166 *)
  b11 <- ((b11 [<<] 20) [|] (b11 [>>] (64 - 20))) [^] b2; (* 167 *)
  b6 += b13; (* 168 *)
  b13 <- ((b13 [<<] 48) [|] (b13 [>>] (64 - 48))) [^] b6; (* 169 *)
  b4 += b9; (* 170 *)
  b9 <- ((b9 [<<] 41) [|] (b9 [>>] (64 - 41))) [^] b4; (* 171 *)
  b14 += b1; (* 172 *)
  b1 <- ((b1 [<<] 47) [|] (b1 [>>] (64 - 47))) [^] b14; (* 173 *)
  b8 += b5; (* 174 *)
  b5 <- ((b5 [<<] 28) [|] (b5 [>>] (64 - 28))) [^] b8; (* 175 *)
  b10 += b3; (* 176 *)
  b3 <- ((b3 [<<] 16) [|] (b3 [>>] (64 - 16))) [^] b10; (* 177 *)
  b12 += b7; (* 178 *)
  b7 <- ((b7 [<<] 25) [|] (b7 [>>] (64 - 25))) [^] b12; (* 179 *)
  b1 += k2; (* 180 *)
  b0 += b1 [+] k1; (* 181 *)
  b1 <- ((b1 [<<] 41) [|] (b1 [>>] (64 - 41))) [^] b0; (* 182 *)
  b3 += k4; (* 183 *)
  b2 += b3 [+] k3; (* 184 *)
  b3 <- ((b3 [<<] 9) [|] (b3 [>>] (64 - 9))) [^] b2; (* 185 *)
  b5 += k6; (* 186 *)
  b4 += b5 [+] k5; (* 187 *)
  b5 <- ((b5 [<<] 37) [|] (b5 [>>] (64 - 37))) [^] b4; (* 188 *)
  b7 += k8; (* 189 *)
  b6 += b7 [+] k7; (* 190 *)
  b7 <- ((b7 [<<] 31) [|] (b7 [>>] (64 - 31))) [^] b6; (* 191 *)
  b9 += k10; (* 192 *)
  b8 += b9 [+] k9; (* 193 *)
  b9 <- ((b9 [<<] 12) [|] (b9 [>>] (64 - 12))) [^] b8; (* 194 *)
  b11 += k12; (* 195 *)
  b10 += b11 [+] k11; (* 196 *)
  b11 <- ((b11 [<<] 47) [|] (b11 [>>] (64 - 47))) [^] b10; (* 197 *)
  b13 += k14 [+] t1; (* 198 *)
  b12 += b13 [+] k13; (* 199 *)
  b13 <- ((b13 [<<] 44) [|] (b13 [>>] (64 - 44))) [^] b12; (* 200 *)
  b15 += k16 [+] EC 1; (* 201 *)
  b14 += b15 [+] k15 [+] t2; (* 202 *)
  b15 <- ((b15 [<<] 30) [|] (b15 [>>] (64 - 30))) [^] b14; (* 203 *)
  b0 += b9; (* 204 *)
  b9 <- ((b9 [<<] 16) [|] (b9 [>>] (64 - 16))) [^] b0; (* 205 *)
  b2 += b13; (* 206 *)
  b13 <- ((b13 [<<] 34) [|] (b13 [>>] (64 - 34))) [^] b2; (* 207 *)
  b6 += b11; (* 208 *)
  b11 <- ((b11 [<<] 56) [|] (b11 [>>] (64 - 56))) [^] b6; (* 209 *)
  b4 += b15; (* 210 *)
  b15 <- ((b15 [<<] 51) [|] (b15 [>>] (64 - 51))) [^] b4; (* 211 *)
  b10 += b7; (* 212 *)
  b7 <- ((b7 [<<] 4) [|] (b7 [>>] (64 - 4))) [^] b10; (* 213 *)
  b12 += b3; (* 214 *)
  b3 <- ((b3 [<<] 53) [|] (b3 [>>] (64 - 53))) [^] b12; (* 215 *)
  b14 += b5; (* 216 *)
  b5 <- ((b5 [<<] 42) [|] (b5 [>>] (64 - 42))) [^] b14; (* 217 *)
  b8 += b1; (* 218 *)
  b1 <- ((b1 [<<] 41) [|] (b1 [>>] (64 - 41))) [^] b8; (* 219 *)
  b0 += b7; (* 220 *)
  b7 <- ((b7 [<<] 31) [|] (b7 [>>] (64 - 31))) [^] b0; (* 221 *)
  b2 += b5; (* 222 *)
  b5 <- ((b5 [<<] 44) [|] (b5 [>>] (64 - 44))) [^] b2; (* 223 *)
  b4 += b3; (* 224 *)
  b3 <- ((b3 [<<] 47) [|] (b3 [>>] (64 - 47))) [^] b4; (* 225 *)
  b6 += b1; (* 226 *)
  b1 <- ((b1 [<<] 46) [|] (b1 [>>] (64 - 46))) [^] b6; (* 227 *)
  b12 += b15; (* 228 *)
  b15 <- ((b15 [<<] 19) [|] (b15 [>>] (64 - 19))) [^] b12; (* 229 *)
  b14 += b13; (* 230 *)
  b13 <- ((b13 [<<] 42) [|] (b13 [>>] (64 - 42))) [^] b14; (* 231 *)
  b8 += b11; (* 232 *)
  b11 <- ((b11 [<<] 44) [|] (b11 [>>] (64 - 44))) [^] b8; (* 233 *)
  b10 += b9; (* 234 *)
  b9 <- ((b9 [<<] 25) [|] (b9 [>>] (64 - 25))) [^] b10; (* 235 *)
  b0 += b15; (* 236 *)
  b15 <- ((b15 [<<] 9) [|] (b15 [>>] (64 - 9))) [^] b0; (* 237 *)
  b2 += b11; (* 238 *)
  b11 <- ((b11 [<<] 48) [|] (b11 [>>] (64 - 48))) [^] b2; (* 239 *)
  b6 += b13; (* 240 *)
  b13 <- ((b13 [<<] 35) [|] (b13 [>>] (64 - 35))) [^] b6; (* 241 *)
  b4 += b9; (* 242 *)
  b9 <- ((b9 [<<] 52) [|] (b9 [>>] (64 - 52))) [^] b4; (* 243 *)
  b14 += b1; (* 244 *)
  b1 <- ((b1 [<<] 23) [|] (b1 [>>] (64 - 23))) [^] b14; (* 245 *)
  b8 += b5; (* 246 *)
  b5 <- ((b5 [<<] 31) [|] (b5 [>>] (64 - 31))) [^] b8; (* 247 *)
  b10 += b3; (* 248 *)
  b3 <- ((b3 [<<] 37) [|] (b3 [>>] (64 - 37))) [^] b10; (* 249 *)
  b12 += b7; (* 250 *)
  b7 <- ((b7 [<<] 20) [|] (b7 [>>] (64 - 20))) [^] b12; (* 251 *)
  b1 += k3; (* 252 *)
  b0 += b1 [+] k2; (* 253 *)
  b1 <- ((b1 [<<] 24) [|] (b1 [>>] (64 - 24))) [^] b0; (* 254 *)
  b3 += k5; (* 255 *)
  b2 += b3 [+] k4; (* 256 *)
  b3 <- ((b3 [<<] 13) [|] (b3 [>>] (64 - 13))) [^] b2; (* 257 *)
  b5 += k7; (* 258 *)
  b4 += b5 [+] k6; (* 259 *)
  b5 <- ((b5 [<<] 8) [|] (b5 [>>] (64 - 8))) [^] b4; (* 260 *)
  b7 += k9; (* 261 *)
  b6 += b7 [+] k8; (* 262 *)
  b7 <- ((b7 [<<] 47) [|] (b7 [>>] (64 - 47))) [^] b6; (* 263 *)
  b9 += k11; (* 264 *)
  b8 += b9 [+] k10; (* 265 *)
  b9 <- ((b9 [<<] 8) [|] (b9 [>>] (64 - 8))) [^] b8; (* 266 *)
  b11 += k13; (* 267 *)
  b10 += b11 [+] k12; (* 268 *)
  b11 <- ((b11 [<<] 17) [|] (b11 [>>] (64 - 17))) [^] b10; (* 269 *)
  b13 += k15 [+] t2; (* 270 *)
  b12 += b13 [+] k14; (* 271 *)
  b13 <- ((b13 [<<] 22) [|] (b13 [>>] (64 - 22))) [^] b12; (* 272 *)
  b15 += k0 [+] EC 2; (* 273 *)
  b14 += b15 [+] k16 [+] t0; (* 274 *)
  b15 <- ((b15 [<<] 37) [|] (b15 [>>] (64 - 37))) [^] b14; (* 275 *)
  b0 += b9; (* 276 *)
  b9 <- ((b9 [<<] 38) [|] (b9 [>>] (64 - 38))) [^] b0; (* 277 *)
  b2 += b13; (* 278 *)
  b13 <- ((b13 [<<] 19) [|] (b13 [>>] (64 - 19))) [^] b2; (* 279 *)
  b6 += b11; (* 280 *)
  b11 <- ((b11 [<<] 10) [|] (b11 [>>] (64 - 10))) [^] b6; (* 281 *)
  b4 += b15; (* 282 *)
  b15 <- ((b15 [<<] 55) [|] (b15 [>>] (64 - 55))) [^] b4; (* 283 *)
  b10 += b7; (* 284 *)
  b7 <- ((b7 [<<] 49) [|] (b7 [>>] (64 - 49))) [^] b10; (* 285 *)
  b12 += b3; (* 286 *)
  b3 <- ((b3 [<<] 18) [|] (b3 [>>] (64 - 18))) [^] b12; (* 287 *)
  b14 += b5; (* 288 *)
  b5 <- ((b5 [<<] 23) [|] (b5 [>>] (64 - 23))) [^] b14; (* 289 *)
  b8 += b1; (* 290 *)
  b1 <- ((b1 [<<] 52) [|] (b1 [>>] (64 - 52))) [^] b8; (* 291 *)
  b0 += b7; (* 292 *)
  b7 <- ((b7 [<<] 33) [|] (b7 [>>] (64 - 33))) [^] b0; (* 293 *)
  b2 += b5; (* 294 *)
  b5 <- ((b5 [<<] 4) [|] (b5 [>>] (64 - 4))) [^] b2; (* 295 *)
  b4 += b3; (* 296 *)
  b3 <- ((b3 [<<] 51) [|] (b3 [>>] (64 - 51))) [^] b4; (* 297 *)
  b6 += b1; (* 298 *)
  b1 <- ((b1 [<<] 13) [|] (b1 [>>] (64 - 13))) [^] b6; (* 299 *)
  b12 += b15; (* 300 *)
  b15 <- ((b15 [<<] 34) [|] (b15 [>>] (64 - 34))) [^] b12; (* 301 *)
  b14 += b13; (* 302 *)
  b13 <- ((b13 [<<] 41) [|] (b13 [>>] (64 - 41))) [^] b14; (* 303 *)
  b8 += b11; (* 304 *)
  b11 <- ((b11 [<<] 59) [|] (b11 [>>] (64 - 59))) [^] b8; (* 305 *)
  b10 += b9; (* 306 *)
  b9 <- ((b9 [<<] 17) [|] (b9 [>>] (64 - 17))) [^] b10; (* 307 *)
  b0 += b15; (* 308 *)
  b15 <- ((b15 [<<] 5) [|] (b15 [>>] (64 - 5))) [^] b0; (* 309 *)
  b2 += b11; (* 310 *)
  b11 <- ((b11 [<<] 20) [|] (b11 [>>] (64 - 20))) [^] b2; (* 311 *)
  b6 += b13; (* 312 *)
  b13 <- ((b13 [<<] 48) [|] (b13 [>>] (64 - 48))) [^] b6; (* 313 *)
  b4 += b9; (* 314 *)
  b9 <- ((b9 [<<] 41) [|] (b9 [>>] (64 - 41))) [^] b4; (* 315 *)
  b14 += b1; (* 316 *)
  b1 <- ((b1 [<<] 47) [|] (b1 [>>] (64 - 47))) [^] b14; (* 317 *)
  b8 += b5; (* 318 *)
  b5 <- ((b5 [<<] 28) [|] (b5 [>>] (64 - 28))) [^] b8; (* 319 *)
  b10 += b3; (* 320 *)
  b3 <- ((b3 [<<] 16) [|] (b3 [>>] (64 - 16))) [^] b10; (* 321 *)
  b12 += b7; (* 322 *)
  b7 <- ((b7 [<<] 25) [|] (b7 [>>] (64 - 25))) [^] b12; (* 323 *)
  b1 += k4; (* 324 *)
  b0 += b1 [+] k3; (* 325 *)
  b1 <- ((b1 [<<] 41) [|] (b1 [>>] (64 - 41))) [^] b0; (* 326 *)
  b3 += k6; (* 327 *)
  b2 += b3 [+] k5; (* 328 *)
  b3 <- ((b3 [<<] 9) [|] (b3 [>>] (64 - 9))) [^] b2; (* 329 *)
  b5 += k8; (* 330 *)
  b4 += b5 [+] k7; (* 331 *)
  b5 <- ((b5 [<<] 37) [|] (b5 [>>] (64 - 37))) [^] b4; (* 332 *)
  b7 += k10; (* 333 *)
  b6 += b7 [+] k9; (* 334 *)
  b7 <- ((b7 [<<] 31) [|] (b7 [>>] (64 - 31))) [^] b6; (* 335 *)
  b9 += k12; (* 336 *)
  b8 += b9 [+] k11; (* 337 *)
  b9 <- ((b9 [<<] 12) [|] (b9 [>>] (64 - 12))) [^] b8; (* 338 *)
  b11 += k14; (* 339 *)
  b10 += b11 [+] k13; (* 340 *)
  b11 <- ((b11 [<<] 47) [|] (b11 [>>] (64 - 47))) [^] b10; (* 341 *)
  b13 += k16 [+] t0; (* 342 *)
  b12 += b13 [+] k15; (* 343 *)
  b13 <- ((b13 [<<] 44) [|] (b13 [>>] (64 - 44))) [^] b12; (* 344 *)
  b15 += k1 [+] EC 3; (* 345 *)
  b14 += b15 [+] k0 [+] t1; (* 346 *)
  b15 <- ((b15 [<<] 30) [|] (b15 [>>] (64 - 30))) [^] b14; (* 347 *)
  b0 += b9; (* 348 *)
  b9 <- ((b9 [<<] 16) [|] (b9 [>>] (64 - 16))) [^] b0; (* 349 *)
  b2 += b13; (* 350 *)
  b13 <- ((b13 [<<] 34) [|] (b13 [>>] (64 - 34))) [^] b2; (* 351 *)
  b6 += b11; (* 352 *)
  b11 <- ((b11 [<<] 56) [|] (b11 [>>] (64 - 56))) [^] b6; (* 353 *)
  b4 += b15; (* 354 *)
  b15 <- ((b15 [<<] 51) [|] (b15 [>>] (64 - 51))) [^] b4; (* 355 *)
  b10 += b7; (* 356 *)
  b7 <- ((b7 [<<] 4) [|] (b7 [>>] (64 - 4))) [^] b10; (* 357 *)
  b12 += b3; (* 358 *)
  b3 <- ((b3 [<<] 53) [|] (b3 [>>] (64 - 53))) [^] b12; (* 359 *)
  b14 += b5; (* 360 *)
  b5 <- ((b5 [<<] 42) [|] (b5 [>>] (64 - 42))) [^] b14; (* 361 *)
  b8 += b1; (* 362 *)
  b1 <- ((b1 [<<] 41) [|] (b1 [>>] (64 - 41))) [^] b8; (* 363 *)
  b0 += b7; (* 364 *)
  b7 <- ((b7 [<<] 31) [|] (b7 [>>] (64 - 31))) [^] b0; (* 365 *)
  b2 += b5; (* 366 *)
  b5 <- ((b5 [<<] 44) [|] (b5 [>>] (64 - 44))) [^] b2; (* 367 *)
  b4 += b3; (* 368 *)
  b3 <- ((b3 [<<] 47) [|] (b3 [>>] (64 - 47))) [^] b4; (* 369 *)
  b6 += b1; (* 370 *)
  b1 <- ((b1 [<<] 46) [|] (b1 [>>] (64 - 46))) [^] b6; (* 371 *)
  b12 += b15; (* 372 *)
  b15 <- ((b15 [<<] 19) [|] (b15 [>>] (64 - 19))) [^] b12; (* 373 *)
  b14 += b13; (* 374 *)
  b13 <- ((b13 [<<] 42) [|] (b13 [>>] (64 - 42))) [^] b14; (* 375 *)
  b8 += b11; (* 376 *)
  b11 <- ((b11 [<<] 44) [|] (b11 [>>] (64 - 44))) [^] b8; (* 377 *)
  b10 += b9; (* 378 *)
  b9 <- ((b9 [<<] 25) [|] (b9 [>>] (64 - 25))) [^] b10; (* 379 *)
  b0 += b15; (* 380 *)
  b15 <- ((b15 [<<] 9) [|] (b15 [>>] (64 - 9))) [^] b0; (* 381 *)
  b2 += b11; (* 382 *)
  b11 <- ((b11 [<<] 48) [|] (b11 [>>] (64 - 48))) [^] b2; (* 383 *)
  b6 += b13; (* 384 *)
  b13 <- ((b13 [<<] 35) [|] (b13 [>>] (64 - 35))) [^] b6; (* 385 *)
  b4 += b9; (* 386 *)
  b9 <- ((b9 [<<] 52) [|] (b9 [>>] (64 - 52))) [^] b4; (* 387 *)
  b14 += b1; (* 388 *)
  b1 <- ((b1 [<<] 23) [|] (b1 [>>] (64 - 23))) [^] b14; (* 389 *)
  b8 += b5; (* 390 *)
  b5 <- ((b5 [<<] 31) [|] (b5 [>>] (64 - 31))) [^] b8; (* 391 *)
  b10 += b3; (* 392 *)
  b3 <- ((b3 [<<] 37) [|] (b3 [>>] (64 - 37))) [^] b10; (* 393 *)
  b12 += b7; (* 394 *)
  b7 <- ((b7 [<<] 20) [|] (b7 [>>] (64 - 20))) [^] b12; (* 395 *)
  b1 += k5; (* 396 *)
  b0 += b1 [+] k4; (* 397 *)
  b1 <- ((b1 [<<] 24) [|] (b1 [>>] (64 - 24))) [^] b0; (* 398 *)
  b3 += k7; (* 399 *)
  b2 += b3 [+] k6; (* 400 *)
  b3 <- ((b3 [<<] 13) [|] (b3 [>>] (64 - 13))) [^] b2; (* 401 *)
  b5 += k9; (* 402 *)
  b4 += b5 [+] k8; (* 403 *)
  b5 <- ((b5 [<<] 8) [|] (b5 [>>] (64 - 8))) [^] b4; (* 404 *)
  b7 += k11; (* 405 *)
  b6 += b7 [+] k10; (* 406 *)
  b7 <- ((b7 [<<] 47) [|] (b7 [>>] (64 - 47))) [^] b6; (* 407 *)
  b9 += k13; (* 408 *)
  b8 += b9 [+] k12; (* 409 *)
  b9 <- ((b9 [<<] 8) [|] (b9 [>>] (64 - 8))) [^] b8; (* 410 *)
  b11 += k15; (* 411 *)
  b10 += b11 [+] k14; (* 412 *)
  b11 <- ((b11 [<<] 17) [|] (b11 [>>] (64 - 17))) [^] b10; (* 413 *)
  b13 += k0 [+] t1; (* 414 *)
  b12 += b13 [+] k16; (* 415 *)
  b13 <- ((b13 [<<] 22) [|] (b13 [>>] (64 - 22))) [^] b12; (* 416 *)
  b15 += k2 [+] EC 4; (* 417 *)
  b14 += b15 [+] k1 [+] t2; (* 418 *)
  b15 <- ((b15 [<<] 37) [|] (b15 [>>] (64 - 37))) [^] b14; (* 419 *)
  b0 += b9; (* 420 *)
  b9 <- ((b9 [<<] 38) [|] (b9 [>>] (64 - 38))) [^] b0; (* 421 *)
  b2 += b13; (* 422 *)
  b13 <- ((b13 [<<] 19) [|] (b13 [>>] (64 - 19))) [^] b2; (* 423 *)
  b6 += b11; (* 424 *)
  b11 <- ((b11 [<<] 10) [|] (b11 [>>] (64 - 10))) [^] b6; (* 425 *)
  b4 += b15; (* 426 *)
  b15 <- ((b15 [<<] 55) [|] (b15 [>>] (64 - 55))) [^] b4; (* 427 *)
  b10 += b7; (* 428 *)
  b7 <- ((b7 [<<] 49) [|] (b7 [>>] (64 - 49))) [^] b10; (* 429 *)
  b12 += b3; (* 430 *)
  b3 <- ((b3 [<<] 18) [|] (b3 [>>] (64 - 18))) [^] b12; (* 431 *)
  b14 += b5; (* 432 *)
  b5 <- ((b5 [<<] 23) [|] (b5 [>>] (64 - 23))) [^] b14; (* 433 *)
  b8 += b1; (* 434 *)
  b1 <- ((b1 [<<] 52) [|] (b1 [>>] (64 - 52))) [^] b8; (* 435 *)
  b0 += b7; (* 436 *)
  b7 <- ((b7 [<<] 33) [|] (b7 [>>] (64 - 33))) [^] b0; (* 437 *)
  b2 += b5; (* 438 *)
  b5 <- ((b5 [<<] 4) [|] (b5 [>>] (64 - 4))) [^] b2; (* 439 *)
  b4 += b3; (* 440 *)
  b3 <- ((b3 [<<] 51) [|] (b3 [>>] (64 - 51))) [^] b4; (* 441 *)
  b6 += b1; (* 442 *)
  b1 <- ((b1 [<<] 13) [|] (b1 [>>] (64 - 13))) [^] b6; (* 443 *)
  b12 += b15; (* 444 *)
  b15 <- ((b15 [<<] 34) [|] (b15 [>>] (64 - 34))) [^] b12; (* 445 *)
  b14 += b13; (* 446 *)
  b13 <- ((b13 [<<] 41) [|] (b13 [>>] (64 - 41))) [^] b14; (* 447 *)
  b8 += b11; (* 448 *)
  b11 <- ((b11 [<<] 59) [|] (b11 [>>] (64 - 59))) [^] b8; (* 449 *)
  b10 += b9; (* 450 *)
  b9 <- ((b9 [<<] 17) [|] (b9 [>>] (64 - 17))) [^] b10; (* 451 *)
  b0 += b15; (* 452 *)
  b15 <- ((b15 [<<] 5) [|] (b15 [>>] (64 - 5))) [^] b0; (* 453 *)
  b2 += b11; (* 454 *)
  b11 <- ((b11 [<<] 20) [|] (b11 [>>] (64 - 20))) [^] b2; (* 455 *)
  b6 += b13; (* 456 *)
  b13 <- ((b13 [<<] 48) [|] (b13 [>>] (64 - 48))) [^] b6; (* 457 *)
  b4 += b9; (* 458 *)
  b9 <- ((b9 [<<] 41) [|] (b9 [>>] (64 - 41))) [^] b4; (* 459 *)
  b14 += b1; (* 460 *)
  b1 <- ((b1 [<<] 47) [|] (b1 [>>] (64 - 47))) [^] b14; (* 461 *)
  b8 += b5; (* 462 *)
  b5 <- ((b5 [<<] 28) [|] (b5 [>>] (64 - 28))) [^] b8; (* 463 *)
  b10 += b3; (* 464 *)
  b3 <- ((b3 [<<] 16) [|] (b3 [>>] (64 - 16))) [^] b10; (* 465 *)
  b12 += b7; (* 466 *)
  b7 <- ((b7 [<<] 25) [|] (b7 [>>] (64 - 25))) [^] b12; (* 467 *)
  b1 += k6; (* 468 *)
  b0 += b1 [+] k5; (* 469 *)
  b1 <- ((b1 [<<] 41) [|] (b1 [>>] (64 - 41))) [^] b0; (* 470 *)
  b3 += k8; (* 471 *)
  b2 += b3 [+] k7; (* 472 *)
  b3 <- ((b3 [<<] 9) [|] (b3 [>>] (64 - 9))) [^] b2; (* 473 *)
  b5 += k10; (* 474 *)
  b4 += b5 [+] k9; (* 475 *)
  b5 <- ((b5 [<<] 37) [|] (b5 [>>] (64 - 37))) [^] b4; (* 476 *)
  b7 += k12; (* 477 *)
  b6 += b7 [+] k11; (* 478 *)
  b7 <- ((b7 [<<] 31) [|] (b7 [>>] (64 - 31))) [^] b6; (* 479 *)
  b9 += k14; (* 480 *)
  b8 += b9 [+] k13; (* 481 *)
  b9 <- ((b9 [<<] 12) [|] (b9 [>>] (64 - 12))) [^] b8; (* 482 *)
  b11 += k16; (* 483 *)
  b10 += b11 [+] k15; (* 484 *)
  b11 <- ((b11 [<<] 47) [|] (b11 [>>] (64 - 47))) [^] b10; (* 485 *)
  b13 += k1 [+] t2; (* 486 *)
  b12 += b13 [+] k0; (* 487 *)
  b13 <- ((b13 [<<] 44) [|] (b13 [>>] (64 - 44))) [^] b12; (* 488 *)
  b15 += k3 [+] EC 5; (* 489 *)
  b14 += b15 [+] k2 [+] t0; (* 490 *)
  b15 <- ((b15 [<<] 30) [|] (b15 [>>] (64 - 30))) [^] b14; (* 491 *)
  b0 += b9; (* 492 *)
  b9 <- ((b9 [<<] 16) [|] (b9 [>>] (64 - 16))) [^] b0; (* 493 *)
  b2 += b13; (* 494 *)
  b13 <- ((b13 [<<] 34) [|] (b13 [>>] (64 - 34))) [^] b2; (* 495 *)
  b6 += b11; (* 496 *)
  b11 <- ((b11 [<<] 56) [|] (b11 [>>] (64 - 56))) [^] b6; (* 497 *)
  b4 += b15; (* 498 *)
  b15 <- ((b15 [<<] 51) [|] (b15 [>>] (64 - 51))) [^] b4; (* 499 *)
  b10 += b7; (* 500 *)
  b7 <- ((b7 [<<] 4) [|] (b7 [>>] (64 - 4))) [^] b10; (* 501 *)
  b12 += b3; (* 502 *)
  b3 <- ((b3 [<<] 53) [|] (b3 [>>] (64 - 53))) [^] b12; (* 503 *)
  b14 += b5; (* 504 *)
  b5 <- ((b5 [<<] 42) [|] (b5 [>>] (64 - 42))) [^] b14; (* 505 *)
  b8 += b1; (* 506 *)
  b1 <- ((b1 [<<] 41) [|] (b1 [>>] (64 - 41))) [^] b8; (* 507 *)
  b0 += b7; (* 508 *)
  b7 <- ((b7 [<<] 31) [|] (b7 [>>] (64 - 31))) [^] b0; (* 509 *)
  b2 += b5; (* 510 *)
  b5 <- ((b5 [<<] 44) [|] (b5 [>>] (64 - 44))) [^] b2; (* 511 *)
  b4 += b3; (* 512 *)
  b3 <- ((b3 [<<] 47) [|] (b3 [>>] (64 - 47))) [^] b4; (* 513 *)
  b6 += b1; (* 514 *)
  b1 <- ((b1 [<<] 46) [|] (b1 [>>] (64 - 46))) [^] b6; (* 515 *)
  b12 += b15; (* 516 *)
  b15 <- ((b15 [<<] 19) [|] (b15 [>>] (64 - 19))) [^] b12; (* 517 *)
  b14 += b13; (* 518 *)
  b13 <- ((b13 [<<] 42) [|] (b13 [>>] (64 - 42))) [^] b14; (* 519 *)
  b8 += b11; (* 520 *)
  b11 <- ((b11 [<<] 44) [|] (b11 [>>] (64 - 44))) [^] b8; (* 521 *)
  b10 += b9; (* 522 *)
  b9 <- ((b9 [<<] 25) [|] (b9 [>>] (64 - 25))) [^] b10; (* 523 *)
  b0 += b15; (* 524 *)
  b15 <- ((b15 [<<] 9) [|] (b15 [>>] (64 - 9))) [^] b0; (* 525 *)
  b2 += b11; (* 526 *)
  b11 <- ((b11 [<<] 48) [|] (b11 [>>] (64 - 48))) [^] b2; (* 527 *)
  b6 += b13; (* 528 *)
  b13 <- ((b13 [<<] 35) [|] (b13 [>>] (64 - 35))) [^] b6; (* 529 *)
  b4 += b9; (* 530 *)
  b9 <- ((b9 [<<] 52) [|] (b9 [>>] (64 - 52))) [^] b4; (* 531 *)
  b14 += b1; (* 532 *)
  b1 <- ((b1 [<<] 23) [|] (b1 [>>] (64 - 23))) [^] b14; (* 533 *)
  b8 += b5; (* 534 *)
  b5 <- ((b5 [<<] 31) [|] (b5 [>>] (64 - 31))) [^] b8; (* 535 *)
  b10 += b3; (* 536 *)
  b3 <- ((b3 [<<] 37) [|] (b3 [>>] (64 - 37))) [^] b10; (* 537 *)
  b12 += b7; (* 538 *)
  b7 <- ((b7 [<<] 20) [|] (b7 [>>] (64 - 20))) [^] b12; (* 539 *)
  b1 += k7; (* 540 *)
  b0 += b1 [+] k6; (* 541 *)
  b1 <- ((b1 [<<] 24) [|] (b1 [>>] (64 - 24))) [^] b0; (* 542 *)
  b3 += k9; (* 543 *)
  b2 += b3 [+] k8; (* 544 *)
  b3 <- ((b3 [<<] 13) [|] (b3 [>>] (64 - 13))) [^] b2; (* 545 *)
  b5 += k11; (* 546 *)
  b4 += b5 [+] k10; (* 547 *)
  b5 <- ((b5 [<<] 8) [|] (b5 [>>] (64 - 8))) [^] b4; (* 548 *)
  b7 += k13; (* 549 *)
  b6 += b7 [+] k12; (* 550 *)
  b7 <- ((b7 [<<] 47) [|] (b7 [>>] (64 - 47))) [^] b6; (* 551 *)
  b9 += k15; (* 552 *)
  b8 += b9 [+] k14; (* 553 *)
  b9 <- ((b9 [<<] 8) [|] (b9 [>>] (64 - 8))) [^] b8; (* 554 *)
  b11 += k0; (* 555 *)
  b10 += b11 [+] k16; (* 556 *)
  b11 <- ((b11 [<<] 17) [|] (b11 [>>] (64 - 17))) [^] b10; (* 557 *)
  b13 += k2 [+] t0; (* 558 *)
  b12 += b13 [+] k1; (* 559 *)
  b13 <- ((b13 [<<] 22) [|] (b13 [>>] (64 - 22))) [^] b12; (* 560 *)
  b15 += k4 [+] EC 6; (* 561 *)
  b14 += b15 [+] k3 [+] t1; (* 562 *)
  b15 <- ((b15 [<<] 37) [|] (b15 [>>] (64 - 37))) [^] b14; (* 563 *)
  b0 += b9; (* 564 *)
  b9 <- ((b9 [<<] 38) [|] (b9 [>>] (64 - 38))) [^] b0; (* 565 *)
  b2 += b13; (* 566 *)
  b13 <- ((b13 [<<] 19) [|] (b13 [>>] (64 - 19))) [^] b2; (* 567 *)
  b6 += b11; (* 568 *)
  b11 <- ((b11 [<<] 10) [|] (b11 [>>] (64 - 10))) [^] b6; (* 569 *)
  b4 += b15; (* 570 *)
  b15 <- ((b15 [<<] 55) [|] (b15 [>>] (64 - 55))) [^] b4; (* 571 *)
  b10 += b7; (* 572 *)
  b7 <- ((b7 [<<] 49) [|] (b7 [>>] (64 - 49))) [^] b10; (* 573 *)
  b12 += b3; (* 574 *)
  b3 <- ((b3 [<<] 18) [|] (b3 [>>] (64 - 18))) [^] b12; (* 575 *)
  b14 += b5; (* 576 *)
  b5 <- ((b5 [<<] 23) [|] (b5 [>>] (64 - 23))) [^] b14; (* 577 *)
  b8 += b1; (* 578 *)
  b1 <- ((b1 [<<] 52) [|] (b1 [>>] (64 - 52))) [^] b8; (* 579 *)
  b0 += b7; (* 580 *)
  b7 <- ((b7 [<<] 33) [|] (b7 [>>] (64 - 33))) [^] b0; (* 581 *)
  b2 += b5; (* 582 *)
  b5 <- ((b5 [<<] 4) [|] (b5 [>>] (64 - 4))) [^] b2; (* 583 *)
  b4 += b3; (* 584 *)
  b3 <- ((b3 [<<] 51) [|] (b3 [>>] (64 - 51))) [^] b4; (* 585 *)
  b6 += b1; (* 586 *)
  b1 <- ((b1 [<<] 13) [|] (b1 [>>] (64 - 13))) [^] b6; (* 587 *)
  b12 += b15; (* 588 *)
  b15 <- ((b15 [<<] 34) [|] (b15 [>>] (64 - 34))) [^] b12; (* 589 *)
  b14 += b13; (* 590 *)
  b13 <- ((b13 [<<] 41) [|] (b13 [>>] (64 - 41))) [^] b14; (* 591 *)
  b8 += b11; (* 592 *)
  b11 <- ((b11 [<<] 59) [|] (b11 [>>] (64 - 59))) [^] b8; (* 593 *)
  b10 += b9; (* 594 *)
  b9 <- ((b9 [<<] 17) [|] (b9 [>>] (64 - 17))) [^] b10; (* 595 *)
  b0 += b15; (* 596 *)
  b15 <- ((b15 [<<] 5) [|] (b15 [>>] (64 - 5))) [^] b0; (* 597 *)
  b2 += b11; (* 598 *)
  b11 <- ((b11 [<<] 20) [|] (b11 [>>] (64 - 20))) [^] b2; (* 599 *)
  b6 += b13; (* 600 *)
  b13 <- ((b13 [<<] 48) [|] (b13 [>>] (64 - 48))) [^] b6; (* 601 *)
  b4 += b9; (* 602 *)
  b9 <- ((b9 [<<] 41) [|] (b9 [>>] (64 - 41))) [^] b4; (* 603 *)
  b14 += b1; (* 604 *)
  b1 <- ((b1 [<<] 47) [|] (b1 [>>] (64 - 47))) [^] b14; (* 605 *)
  b8 += b5; (* 606 *)
  b5 <- ((b5 [<<] 28) [|] (b5 [>>] (64 - 28))) [^] b8; (* 607 *)
  b10 += b3; (* 608 *)
  b3 <- ((b3 [<<] 16) [|] (b3 [>>] (64 - 16))) [^] b10; (* 609 *)
  b12 += b7; (* 610 *)
  b7 <- ((b7 [<<] 25) [|] (b7 [>>] (64 - 25))) [^] b12; (* 611 *)
  b1 += k8; (* 612 *)
  b0 += b1 [+] k7; (* 613 *)
  b1 <- ((b1 [<<] 41) [|] (b1 [>>] (64 - 41))) [^] b0; (* 614 *)
  b3 += k10; (* 615 *)
  b2 += b3 [+] k9; (* 616 *)
  b3 <- ((b3 [<<] 9) [|] (b3 [>>] (64 - 9))) [^] b2; (* 617 *)
  b5 += k12; (* 618 *)
  b4 += b5 [+] k11; (* 619 *)
  b5 <- ((b5 [<<] 37) [|] (b5 [>>] (64 - 37))) [^] b4; (* 620 *)
  b7 += k14; (* 621 *)
  b6 += b7 [+] k13; (* 622 *)
  b7 <- ((b7 [<<] 31) [|] (b7 [>>] (64 - 31))) [^] b6; (* 623 *)
  b9 += k16; (* 624 *)
  b8 += b9 [+] k15; (* 625 *)
  b9 <- ((b9 [<<] 12) [|] (b9 [>>] (64 - 12))) [^] b8; (* 626 *)
  b11 += k1; (* 627 *)
  b10 += b11 [+] k0; (* 628 *)
  b11 <- ((b11 [<<] 47) [|] (b11 [>>] (64 - 47))) [^] b10; (* 629 *)
  b13 += k3 [+] t1; (* 630 *)
  b12 += b13 [+] k2; (* 631 *)
  b13 <- ((b13 [<<] 44) [|] (b13 [>>] (64 - 44))) [^] b12; (* 632 *)
  b15 += k5 [+] EC 7; (* 633 *)
  b14 += b15 [+] k4 [+] t2; (* 634 *)
  b15 <- ((b15 [<<] 30) [|] (b15 [>>] (64 - 30))) [^] b14; (* 635 *)
  b0 += b9; (* 636 *)
  b9 <- ((b9 [<<] 16) [|] (b9 [>>] (64 - 16))) [^] b0; (* 637 *)
  b2 += b13; (* 638 *)
  b13 <- ((b13 [<<] 34) [|] (b13 [>>] (64 - 34))) [^] b2; (* 639 *)
  b6 += b11; (* 640 *)
  b11 <- ((b11 [<<] 56) [|] (b11 [>>] (64 - 56))) [^] b6; (* 641 *)
  b4 += b15; (* 642 *)
  b15 <- ((b15 [<<] 51) [|] (b15 [>>] (64 - 51))) [^] b4; (* 643 *)
  b10 += b7; (* 644 *)
  b7 <- ((b7 [<<] 4) [|] (b7 [>>] (64 - 4))) [^] b10; (* 645 *)
  b12 += b3; (* 646 *)
  b3 <- ((b3 [<<] 53) [|] (b3 [>>] (64 - 53))) [^] b12; (* 647 *)
  b14 += b5; (* 648 *)
  b5 <- ((b5 [<<] 42) [|] (b5 [>>] (64 - 42))) [^] b14; (* 649 *)
  b8 += b1; (* 650 *)
  b1 <- ((b1 [<<] 41) [|] (b1 [>>] (64 - 41))) [^] b8; (* 651 *)
  b0 += b7; (* 652 *)
  b7 <- ((b7 [<<] 31) [|] (b7 [>>] (64 - 31))) [^] b0; (* 653 *)
  b2 += b5; (* 654 *)
  b5 <- ((b5 [<<] 44) [|] (b5 [>>] (64 - 44))) [^] b2; (* 655 *)
  b4 += b3; (* 656 *)
  b3 <- ((b3 [<<] 47) [|] (b3 [>>] (64 - 47))) [^] b4; (* 657 *)
  b6 += b1; (* 658 *)
  b1 <- ((b1 [<<] 46) [|] (b1 [>>] (64 - 46))) [^] b6; (* 659 *)
  b12 += b15; (* 660 *)
  b15 <- ((b15 [<<] 19) [|] (b15 [>>] (64 - 19))) [^] b12; (* 661 *)
  b14 += b13; (* 662 *)
  b13 <- ((b13 [<<] 42) [|] (b13 [>>] (64 - 42))) [^] b14; (* 663 *)
  b8 += b11; (* 664 *)
  b11 <- ((b11 [<<] 44) [|] (b11 [>>] (64 - 44))) [^] b8; (* 665 *)
  b10 += b9; (* 666 *)
  b9 <- ((b9 [<<] 25) [|] (b9 [>>] (64 - 25))) [^] b10; (* 667 *)
  b0 += b15; (* 668 *)
  b15 <- ((b15 [<<] 9) [|] (b15 [>>] (64 - 9))) [^] b0; (* 669 *)
  b2 += b11; (* 670 *)
  b11 <- ((b11 [<<] 48) [|] (b11 [>>] (64 - 48))) [^] b2; (* 671 *)
  b6 += b13; (* 672 *)
  b13 <- ((b13 [<<] 35) [|] (b13 [>>] (64 - 35))) [^] b6; (* 673 *)
  b4 += b9; (* 674 *)
  b9 <- ((b9 [<<] 52) [|] (b9 [>>] (64 - 52))) [^] b4; (* 675 *)
  b14 += b1; (* 676 *)
  b1 <- ((b1 [<<] 23) [|] (b1 [>>] (64 - 23))) [^] b14; (* 677 *)
  b8 += b5; (* 678 *)
  b5 <- ((b5 [<<] 31) [|] (b5 [>>] (64 - 31))) [^] b8; (* 679 *)
  b10 += b3; (* 680 *)
  b3 <- ((b3 [<<] 37) [|] (b3 [>>] (64 - 37))) [^] b10; (* 681 *)
  b12 += b7; (* 682 *)
  b7 <- ((b7 [<<] 20) [|] (b7 [>>] (64 - 20))) [^] b12; (* 683 *)
  b1 += k9; (* 684 *)
  b0 += b1 [+] k8; (* 685 *)
  b1 <- ((b1 [<<] 24) [|] (b1 [>>] (64 - 24))) [^] b0; (* 686 *)
  b3 += k11; (* 687 *)
  b2 += b3 [+] k10; (* 688 *)
  b3 <- ((b3 [<<] 13) [|] (b3 [>>] (64 - 13))) [^] b2; (* 689 *)
  b5 += k13; (* 690 *)
  b4 += b5 [+] k12; (* 691 *)
  b5 <- ((b5 [<<] 8) [|] (b5 [>>] (64 - 8))) [^] b4; (* 692 *)
  b7 += k15; (* 693 *)
  b6 += b7 [+] k14; (* 694 *)
  b7 <- ((b7 [<<] 47) [|] (b7 [>>] (64 - 47))) [^] b6; (* 695 *)
  b9 += k0; (* 696 *)
  b8 += b9 [+] k16; (* 697 *)
  b9 <- ((b9 [<<] 8) [|] (b9 [>>] (64 - 8))) [^] b8; (* 698 *)
  b11 += k2; (* 699 *)
  b10 += b11 [+] k1; (* 700 *)
  b11 <- ((b11 [<<] 17) [|] (b11 [>>] (64 - 17))) [^] b10; (* 701 *)
  b13 += k4 [+] t2; (* 702 *)
  b12 += b13 [+] k3; (* 703 *)
  b13 <- ((b13 [<<] 22) [|] (b13 [>>] (64 - 22))) [^] b12; (* 704 *)
  b15 += k6 [+] EC 8; (* 705 *)
  b14 += b15 [+] k5 [+] t0; (* 706 *)
  b15 <- ((b15 [<<] 37) [|] (b15 [>>] (64 - 37))) [^] b14; (* 707 *)
  b0 += b9; (* 708 *)
  b9 <- ((b9 [<<] 38) [|] (b9 [>>] (64 - 38))) [^] b0; (* 709 *)
  b2 += b13; (* 710 *)
  b13 <- ((b13 [<<] 19) [|] (b13 [>>] (64 - 19))) [^] b2; (* 711 *)
  b6 += b11; (* 712 *)
  b11 <- ((b11 [<<] 10) [|] (b11 [>>] (64 - 10))) [^] b6; (* 713 *)
  b4 += b15; (* 714 *)
  b15 <- ((b15 [<<] 55) [|] (b15 [>>] (64 - 55))) [^] b4; (* 715 *)
  b10 += b7; (* 716 *)
  b7 <- ((b7 [<<] 49) [|] (b7 [>>] (64 - 49))) [^] b10; (* 717 *)
  b12 += b3; (* 718 *)
  b3 <- ((b3 [<<] 18) [|] (b3 [>>] (64 - 18))) [^] b12; (* 719 *)
  b14 += b5; (* 720 *)
  b5 <- ((b5 [<<] 23) [|] (b5 [>>] (64 - 23))) [^] b14; (* 721 *)
  b8 += b1; (* 722 *)
  b1 <- ((b1 [<<] 52) [|] (b1 [>>] (64 - 52))) [^] b8; (* 723 *)
  b0 += b7; (* 724 *)
  b7 <- ((b7 [<<] 33) [|] (b7 [>>] (64 - 33))) [^] b0; (* 725 *)
  b2 += b5; (* 726 *)
  b5 <- ((b5 [<<] 4) [|] (b5 [>>] (64 - 4))) [^] b2; (* 727 *)
  b4 += b3; (* 728 *)
  b3 <- ((b3 [<<] 51) [|] (b3 [>>] (64 - 51))) [^] b4; (* 729 *)
  b6 += b1; (* 730 *)
  b1 <- ((b1 [<<] 13) [|] (b1 [>>] (64 - 13))) [^] b6; (* 731 *)
  b12 += b15; (* 732 *)
  b15 <- ((b15 [<<] 34) [|] (b15 [>>] (64 - 34))) [^] b12; (* 733 *)
  b14 += b13; (* 734 *)
  b13 <- ((b13 [<<] 41) [|] (b13 [>>] (64 - 41))) [^] b14; (* 735 *)
  b8 += b11; (* 736 *)
  b11 <- ((b11 [<<] 59) [|] (b11 [>>] (64 - 59))) [^] b8; (* 737 *)
  b10 += b9; (* 738 *)
  b9 <- ((b9 [<<] 17) [|] (b9 [>>] (64 - 17))) [^] b10; (* 739 *)
  b0 += b15; (* 740 *)
  b15 <- ((b15 [<<] 5) [|] (b15 [>>] (64 - 5))) [^] b0; (* 741 *)
  b2 += b11; (* 742 *)
  b11 <- ((b11 [<<] 20) [|] (b11 [>>] (64 - 20))) [^] b2; (* 743 *)
  b6 += b13; (* 744 *)
  b13 <- ((b13 [<<] 48) [|] (b13 [>>] (64 - 48))) [^] b6; (* 745 *)
  b4 += b9; (* 746 *)
  b9 <- ((b9 [<<] 41) [|] (b9 [>>] (64 - 41))) [^] b4; (* 747 *)
  b14 += b1; (* 748 *)
  b1 <- ((b1 [<<] 47) [|] (b1 [>>] (64 - 47))) [^] b14; (* 749 *)
  b8 += b5; (* 750 *)
  b5 <- ((b5 [<<] 28) [|] (b5 [>>] (64 - 28))) [^] b8; (* 751 *)
  b10 += b3; (* 752 *)
  b3 <- ((b3 [<<] 16) [|] (b3 [>>] (64 - 16))) [^] b10; (* 753 *)
  b12 += b7; (* 754 *)
  b7 <- ((b7 [<<] 25) [|] (b7 [>>] (64 - 25))) [^] b12; (* 755 *)
  b1 += k10; (* 756 *)
  b0 += b1 [+] k9; (* 757 *)
  b1 <- ((b1 [<<] 41) [|] (b1 [>>] (64 - 41))) [^] b0; (* 758 *)
  b3 += k12; (* 759 *)
  b2 += b3 [+] k11; (* 760 *)
  b3 <- ((b3 [<<] 9) [|] (b3 [>>] (64 - 9))) [^] b2; (* 761 *)
  b5 += k14; (* 762 *)
  b4 += b5 [+] k13; (* 763 *)
  b5 <- ((b5 [<<] 37) [|] (b5 [>>] (64 - 37))) [^] b4; (* 764 *)
  b7 += k16; (* 765 *)
  b6 += b7 [+] k15; (* 766 *)
  b7 <- ((b7 [<<] 31) [|] (b7 [>>] (64 - 31))) [^] b6; (* 767 *)
  b9 += k1; (* 768 *)
  b8 += b9 [+] k0; (* 769 *)
  b9 <- ((b9 [<<] 12) [|] (b9 [>>] (64 - 12))) [^] b8; (* 770 *)
  b11 += k3; (* 771 *)
  b10 += b11 [+] k2; (* 772 *)
  b11 <- ((b11 [<<] 47) [|] (b11 [>>] (64 - 47))) [^] b10; (* 773 *)
  b13 += k5 [+] t0; (* 774 *)
  b12 += b13 [+] k4; (* 775 *)
  b13 <- ((b13 [<<] 44) [|] (b13 [>>] (64 - 44))) [^] b12; (* 776 *)
  b15 += k7 [+] EC 9; (* 777 *)
  b14 += b15 [+] k6 [+] t1; (* 778 *)
  b15 <- ((b15 [<<] 30) [|] (b15 [>>] (64 - 30))) [^] b14; (* 779 *)
  b0 += b9; (* 780 *)
  b9 <- ((b9 [<<] 16) [|] (b9 [>>] (64 - 16))) [^] b0; (* 781 *)
  b2 += b13; (* 782 *)
  b13 <- ((b13 [<<] 34) [|] (b13 [>>] (64 - 34))) [^] b2; (* 783 *)
  b6 += b11; (* 784 *)
  b11 <- ((b11 [<<] 56) [|] (b11 [>>] (64 - 56))) [^] b6; (* 785 *)
  b4 += b15; (* 786 *)
  b15 <- ((b15 [<<] 51) [|] (b15 [>>] (64 - 51))) [^] b4; (* 787 *)
  b10 += b7; (* 788 *)
  b7 <- ((b7 [<<] 4) [|] (b7 [>>] (64 - 4))) [^] b10; (* 789 *)
  b12 += b3; (* 790 *)
  b3 <- ((b3 [<<] 53) [|] (b3 [>>] (64 - 53))) [^] b12; (* 791 *)
  b14 += b5; (* 792 *)
  b5 <- ((b5 [<<] 42) [|] (b5 [>>] (64 - 42))) [^] b14; (* 793 *)
  b8 += b1; (* 794 *)
  b1 <- ((b1 [<<] 41) [|] (b1 [>>] (64 - 41))) [^] b8; (* 795 *)
  b0 += b7; (* 796 *)
  b7 <- ((b7 [<<] 31) [|] (b7 [>>] (64 - 31))) [^] b0; (* 797 *)
  b2 += b5; (* 798 *)
  b5 <- ((b5 [<<] 44) [|] (b5 [>>] (64 - 44))) [^] b2; (* 799 *)
  b4 += b3; (* 800 *)
  b3 <- ((b3 [<<] 47) [|] (b3 [>>] (64 - 47))) [^] b4; (* 801 *)
  b6 += b1; (* 802 *)
  b1 <- ((b1 [<<] 46) [|] (b1 [>>] (64 - 46))) [^] b6; (* 803 *)
  b12 += b15; (* 804 *)
  b15 <- ((b15 [<<] 19) [|] (b15 [>>] (64 - 19))) [^] b12; (* 805 *)
  b14 += b13; (* 806 *)
  b13 <- ((b13 [<<] 42) [|] (b13 [>>] (64 - 42))) [^] b14; (* 807 *)
  b8 += b11; (* 808 *)
  b11 <- ((b11 [<<] 44) [|] (b11 [>>] (64 - 44))) [^] b8; (* 809 *)
  b10 += b9; (* 810 *)
  b9 <- ((b9 [<<] 25) [|] (b9 [>>] (64 - 25))) [^] b10; (* 811 *)
  b0 += b15; (* 812 *)
  b15 <- ((b15 [<<] 9) [|] (b15 [>>] (64 - 9))) [^] b0; (* 813 *)
  b2 += b11; (* 814 *)
  b11 <- ((b11 [<<] 48) [|] (b11 [>>] (64 - 48))) [^] b2; (* 815 *)
  b6 += b13; (* 816 *)
  b13 <- ((b13 [<<] 35) [|] (b13 [>>] (64 - 35))) [^] b6; (* 817 *)
  b4 += b9; (* 818 *)
  b9 <- ((b9 [<<] 52) [|] (b9 [>>] (64 - 52))) [^] b4; (* 819 *)
  b14 += b1; (* 820 *)
  b1 <- ((b1 [<<] 23) [|] (b1 [>>] (64 - 23))) [^] b14; (* 821 *)
  b8 += b5; (* 822 *)
  b5 <- ((b5 [<<] 31) [|] (b5 [>>] (64 - 31))) [^] b8; (* 823 *)
  b10 += b3; (* 824 *)
  b3 <- ((b3 [<<] 37) [|] (b3 [>>] (64 - 37))) [^] b10; (* 825 *)
  b12 += b7; (* 826 *)
  b7 <- ((b7 [<<] 20) [|] (b7 [>>] (64 - 20))) [^] b12; (* 827 *)
  b1 += k11; (* 828 *)
  b0 += b1 [+] k10; (* 829 *)
  b1 <- ((b1 [<<] 24) [|] (b1 [>>] (64 - 24))) [^] b0; (* 830 *)
  b3 += k13; (* 831 *)
  b2 += b3 [+] k12; (* 832 *)
  b3 <- ((b3 [<<] 13) [|] (b3 [>>] (64 - 13))) [^] b2; (* 833 *)
  b5 += k15; (* 834 *)
  b4 += b5 [+] k14; (* 835 *)
  b5 <- ((b5 [<<] 8) [|] (b5 [>>] (64 - 8))) [^] b4; (* 836 *)
  b7 += k0; (* 837 *)
  b6 += b7 [+] k16; (* 838 *)
  b7 <- ((b7 [<<] 47) [|] (b7 [>>] (64 - 47))) [^] b6; (* 839 *)
  b9 += k2; (* 840 *)
  b8 += b9 [+] k1; (* 841 *)
  b9 <- ((b9 [<<] 8) [|] (b9 [>>] (64 - 8))) [^] b8; (* 842 *)
  b11 += k4; (* 843 *)
  b10 += b11 [+] k3; (* 844 *)
  b11 <- ((b11 [<<] 17) [|] (b11 [>>] (64 - 17))) [^] b10; (* 845 *)
  b13 += k6 [+] t1; (* 846 *)
  b12 += b13 [+] k5; (* 847 *)
  b13 <- ((b13 [<<] 22) [|] (b13 [>>] (64 - 22))) [^] b12; (* 848 *)
  b15 += k8 [+] EC 10; (* 849 *)
  b14 += b15 [+] k7 [+] t2; (* 850 *)
  b15 <- ((b15 [<<] 37) [|] (b15 [>>] (64 - 37))) [^] b14; (* 851 *)
  b0 += b9; (* 852 *)
  b9 <- ((b9 [<<] 38) [|] (b9 [>>] (64 - 38))) [^] b0; (* 853 *)
  b2 += b13; (* 854 *)
  b13 <- ((b13 [<<] 19) [|] (b13 [>>] (64 - 19))) [^] b2; (* 855 *)
  b6 += b11; (* 856 *)
  b11 <- ((b11 [<<] 10) [|] (b11 [>>] (64 - 10))) [^] b6; (* 857 *)
  b4 += b15; (* 858 *)
  b15 <- ((b15 [<<] 55) [|] (b15 [>>] (64 - 55))) [^] b4; (* 859 *)
  b10 += b7; (* 860 *)
  b7 <- ((b7 [<<] 49) [|] (b7 [>>] (64 - 49))) [^] b10; (* 861 *)
  b12 += b3; (* 862 *)
  b3 <- ((b3 [<<] 18) [|] (b3 [>>] (64 - 18))) [^] b12; (* 863 *)
  b14 += b5; (* 864 *)
  b5 <- ((b5 [<<] 23) [|] (b5 [>>] (64 - 23))) [^] b14; (* 865 *)
  b8 += b1; (* 866 *)
  b1 <- ((b1 [<<] 52) [|] (b1 [>>] (64 - 52))) [^] b8; (* 867 *)
  b0 += b7; (* 868 *)
  b7 <- ((b7 [<<] 33) [|] (b7 [>>] (64 - 33))) [^] b0; (* 869 *)
  b2 += b5; (* 870 *)
  b5 <- ((b5 [<<] 4) [|] (b5 [>>] (64 - 4))) [^] b2; (* 871 *)
  b4 += b3; (* 872 *)
  b3 <- ((b3 [<<] 51) [|] (b3 [>>] (64 - 51))) [^] b4; (* 873 *)
  b6 += b1; (* 874 *)
  b1 <- ((b1 [<<] 13) [|] (b1 [>>] (64 - 13))) [^] b6; (* 875 *)
  b12 += b15; (* 876 *)
  b15 <- ((b15 [<<] 34) [|] (b15 [>>] (64 - 34))) [^] b12; (* 877 *)
  b14 += b13; (* 878 *)
  b13 <- ((b13 [<<] 41) [|] (b13 [>>] (64 - 41))) [^] b14; (* 879 *)
  b8 += b11; (* 880 *)
  b11 <- ((b11 [<<] 59) [|] (b11 [>>] (64 - 59))) [^] b8; (* 881 *)
  b10 += b9; (* 882 *)
  b9 <- ((b9 [<<] 17) [|] (b9 [>>] (64 - 17))) [^] b10; (* 883 *)
  b0 += b15; (* 884 *)
  b15 <- ((b15 [<<] 5) [|] (b15 [>>] (64 - 5))) [^] b0; (* 885 *)
  b2 += b11; (* 886 *)
  b11 <- ((b11 [<<] 20) [|] (b11 [>>] (64 - 20))) [^] b2; (* 887 *)
  b6 += b13; (* 888 *)
  b13 <- ((b13 [<<] 48) [|] (b13 [>>] (64 - 48))) [^] b6; (* 889 *)
  b4 += b9; (* 890 *)
  b9 <- ((b9 [<<] 41) [|] (b9 [>>] (64 - 41))) [^] b4; (* 891 *)
  b14 += b1; (* 892 *)
  b1 <- ((b1 [<<] 47) [|] (b1 [>>] (64 - 47))) [^] b14; (* 893 *)
  b8 += b5; (* 894 *)
  b5 <- ((b5 [<<] 28) [|] (b5 [>>] (64 - 28))) [^] b8; (* 895 *)
  b10 += b3; (* 896 *)
  b3 <- ((b3 [<<] 16) [|] (b3 [>>] (64 - 16))) [^] b10; (* 897 *)
  b12 += b7; (* 898 *)
  b7 <- ((b7 [<<] 25) [|] (b7 [>>] (64 - 25))) [^] b12; (* 899 *)
  b1 += k12; (* 900 *)
  b0 += b1 [+] k11; (* 901 *)
  b1 <- ((b1 [<<] 41) [|] (b1 [>>] (64 - 41))) [^] b0; (* 902 *)
  b3 += k14; (* 903 *)
  b2 += b3 [+] k13; (* 904 *)
  b3 <- ((b3 [<<] 9) [|] (b3 [>>] (64 - 9))) [^] b2; (* 905 *)
  b5 += k16; (* 906 *)
  b4 += b5 [+] k15; (* 907 *)
  b5 <- ((b5 [<<] 37) [|] (b5 [>>] (64 - 37))) [^] b4; (* 908 *)
  b7 += k1; (* 909 *)
  b6 += b7 [+] k0; (* 910 *)
  b7 <- ((b7 [<<] 31) [|] (b7 [>>] (64 - 31))) [^] b6; (* 911 *)
  b9 += k3; (* 912 *)
  b8 += b9 [+] k2; (* 913 *)
  b9 <- ((b9 [<<] 12) [|] (b9 [>>] (64 - 12))) [^] b8; (* 914 *)
  b11 += k5; (* 915 *)
  b10 += b11 [+] k4; (* 916 *)
  b11 <- ((b11 [<<] 47) [|] (b11 [>>] (64 - 47))) [^] b10; (* 917 *)
  b13 += k7 [+] t2; (* 918 *)
  b12 += b13 [+] k6; (* 919 *)
  b13 <- ((b13 [<<] 44) [|] (b13 [>>] (64 - 44))) [^] b12; (* 920 *)
  b15 += k9 [+] EC 11; (* 921 *)
  b14 += b15 [+] k8 [+] t0; (* 922 *)
  b15 <- ((b15 [<<] 30) [|] (b15 [>>] (64 - 30))) [^] b14; (* 923 *)
  b0 += b9; (* 924 *)
  b9 <- ((b9 [<<] 16) [|] (b9 [>>] (64 - 16))) [^] b0; (* 925 *)
  b2 += b13; (* 926 *)
  b13 <- ((b13 [<<] 34) [|] (b13 [>>] (64 - 34))) [^] b2; (* 927 *)
  b6 += b11; (* 928 *)
  b11 <- ((b11 [<<] 56) [|] (b11 [>>] (64 - 56))) [^] b6; (* 929 *)
  b4 += b15; (* 930 *)
  b15 <- ((b15 [<<] 51) [|] (b15 [>>] (64 - 51))) [^] b4; (* 931 *)
  b10 += b7; (* 932 *)
  b7 <- ((b7 [<<] 4) [|] (b7 [>>] (64 - 4))) [^] b10; (* 933 *)
  b12 += b3; (* 934 *)
  b3 <- ((b3 [<<] 53) [|] (b3 [>>] (64 - 53))) [^] b12; (* 935 *)
  b14 += b5; (* 936 *)
  b5 <- ((b5 [<<] 42) [|] (b5 [>>] (64 - 42))) [^] b14; (* 937 *)
  b8 += b1; (* 938 *)
  b1 <- ((b1 [<<] 41) [|] (b1 [>>] (64 - 41))) [^] b8; (* 939 *)
  b0 += b7; (* 940 *)
  b7 <- ((b7 [<<] 31) [|] (b7 [>>] (64 - 31))) [^] b0; (* 941 *)
  b2 += b5; (* 942 *)
  b5 <- ((b5 [<<] 44) [|] (b5 [>>] (64 - 44))) [^] b2; (* 943 *)
  b4 += b3; (* 944 *)
  b3 <- ((b3 [<<] 47) [|] (b3 [>>] (64 - 47))) [^] b4; (* 945 *)
  b6 += b1; (* 946 *)
  b1 <- ((b1 [<<] 46) [|] (b1 [>>] (64 - 46))) [^] b6; (* 947 *)
  b12 += b15; (* 948 *)
  b15 <- ((b15 [<<] 19) [|] (b15 [>>] (64 - 19))) [^] b12; (* 949 *)
  b14 += b13; (* 950 *)
  b13 <- ((b13 [<<] 42) [|] (b13 [>>] (64 - 42))) [^] b14; (* 951 *)
  b8 += b11; (* 952 *)
  b11 <- ((b11 [<<] 44) [|] (b11 [>>] (64 - 44))) [^] b8; (* 953 *)
  b10 += b9; (* 954 *)
  b9 <- ((b9 [<<] 25) [|] (b9 [>>] (64 - 25))) [^] b10; (* 955 *)
  b0 += b15; (* 956 *)
  b15 <- ((b15 [<<] 9) [|] (b15 [>>] (64 - 9))) [^] b0; (* 957 *)
  b2 += b11; (* 958 *)
  b11 <- ((b11 [<<] 48) [|] (b11 [>>] (64 - 48))) [^] b2; (* 959 *)
  b6 += b13; (* 960 *)
  b13 <- ((b13 [<<] 35) [|] (b13 [>>] (64 - 35))) [^] b6; (* 961 *)
  b4 += b9; (* 962 *)
  b9 <- ((b9 [<<] 52) [|] (b9 [>>] (64 - 52))) [^] b4; (* 963 *)
  b14 += b1; (* 964 *)
  b1 <- ((b1 [<<] 23) [|] (b1 [>>] (64 - 23))) [^] b14; (* 965 *)
  b8 += b5; (* 966 *)
  b5 <- ((b5 [<<] 31) [|] (b5 [>>] (64 - 31))) [^] b8; (* 967 *)
  b10 += b3; (* 968 *)
  b3 <- ((b3 [<<] 37) [|] (b3 [>>] (64 - 37))) [^] b10; (* 969 *)
  b12 += b7; (* 970 *)
  b7 <- ((b7 [<<] 20) [|] (b7 [>>] (64 - 20))) [^] b12; (* 971 *)
  b1 += k13; (* 972 *)
  b0 += b1 [+] k12; (* 973 *)
  b1 <- ((b1 [<<] 24) [|] (b1 [>>] (64 - 24))) [^] b0; (* 974 *)
  b3 += k15; (* 975 *)
  b2 += b3 [+] k14; (* 976 *)
  b3 <- ((b3 [<<] 13) [|] (b3 [>>] (64 - 13))) [^] b2; (* 977 *)
  b5 += k0; (* 978 *)
  b4 += b5 [+] k16; (* 979 *)
  b5 <- ((b5 [<<] 8) [|] (b5 [>>] (64 - 8))) [^] b4; (* 980 *)
  b7 += k2; (* 981 *)
  b6 += b7 [+] k1; (* 982 *)
  b7 <- ((b7 [<<] 47) [|] (b7 [>>] (64 - 47))) [^] b6; (* 983 *)
  b9 += k4; (* 984 *)
  b8 += b9 [+] k3; (* 985 *)
  b9 <- ((b9 [<<] 8) [|] (b9 [>>] (64 - 8))) [^] b8; (* 986 *)
  b11 += k6; (* 987 *)
  b10 += b11 [+] k5; (* 988 *)
  b11 <- ((b11 [<<] 17) [|] (b11 [>>] (64 - 17))) [^] b10; (* 989 *)
  b13 += k8 [+] t0; (* 990 *)
  b12 += b13 [+] k7; (* 991 *)
  b13 <- ((b13 [<<] 22) [|] (b13 [>>] (64 - 22))) [^] b12; (* 992 *)
  b15 += k10 [+] EC 12; (* 993 *)
  b14 += b15 [+] k9 [+] t1; (* 994 *)
  b15 <- ((b15 [<<] 37) [|] (b15 [>>] (64 - 37))) [^] b14; (* 995 *)
  b0 += b9; (* 996 *)
  b9 <- ((b9 [<<] 38) [|] (b9 [>>] (64 - 38))) [^] b0; (* 997 *)
  b2 += b13; (* 998 *)
  b13 <- ((b13 [<<] 19) [|] (b13 [>>] (64 - 19))) [^] b2; (* 999 *)
  b6 += b11; (* 1000 *)
  b11 <- ((b11 [<<] 10) [|] (b11 [>>] (64 - 10))) [^] b6; (* 1001 *)
  b4 += b15; (* 1002 *)
  b15 <- ((b15 [<<] 55) [|] (b15 [>>] (64 - 55))) [^] b4; (* 1003 *)
  b10 += b7; (* 1004 *)
  b7 <- ((b7 [<<] 49) [|] (b7 [>>] (64 - 49))) [^] b10; (* 1005 *)
  b12 += b3; (* 1006 *)
  b3 <- ((b3 [<<] 18) [|] (b3 [>>] (64 - 18))) [^] b12; (* 1007 *)
  b14 += b5; (* 1008 *)
  b5 <- ((b5 [<<] 23) [|] (b5 [>>] (64 - 23))) [^] b14; (* 1009 *)
  b8 += b1; (* 1010 *)
  b1 <- ((b1 [<<] 52) [|] (b1 [>>] (64 - 52))) [^] b8; (* 1011 *)
  b0 += b7; (* 1012 *)
  b7 <- ((b7 [<<] 33) [|] (b7 [>>] (64 - 33))) [^] b0; (* 1013 *)
  b2 += b5; (* 1014 *)
  b5 <- ((b5 [<<] 4) [|] (b5 [>>] (64 - 4))) [^] b2; (* 1015 *)
  b4 += b3; (* 1016 *)
  b3 <- ((b3 [<<] 51) [|] (b3 [>>] (64 - 51))) [^] b4; (* 1017 *)
  b6 += b1; (* 1018 *)
  b1 <- ((b1 [<<] 13) [|] (b1 [>>] (64 - 13))) [^] b6; (* 1019 *)
  b12 += b15; (* 1020 *)
  b15 <- ((b15 [<<] 34) [|] (b15 [>>] (64 - 34))) [^] b12; (* 1021 *)
  b14 += b13; (* 1022 *)
  b13 <- ((b13 [<<] 41) [|] (b13 [>>] (64 - 41))) [^] b14; (* 1023 *)
  b8 += b11; (* 1024 *)
  b11 <- ((b11 [<<] 59) [|] (b11 [>>] (64 - 59))) [^] b8; (* 1025 *)
  b10 += b9; (* 1026 *)
  b9 <- ((b9 [<<] 17) [|] (b9 [>>] (64 - 17))) [^] b10; (* 1027 *)
  b0 += b15; (* 1028 *)
  b15 <- ((b15 [<<] 5) [|] (b15 [>>] (64 - 5))) [^] b0; (* 1029 *)
  b2 += b11; (* 1030 *)
  b11 <- ((b11 [<<] 20) [|] (b11 [>>] (64 - 20))) [^] b2; (* 1031 *)
  b6 += b13; (* 1032 *)
  b13 <- ((b13 [<<] 48) [|] (b13 [>>] (64 - 48))) [^] b6; (* 1033 *)
  b4 += b9; (* 1034 *)
  b9 <- ((b9 [<<] 41) [|] (b9 [>>] (64 - 41))) [^] b4; (* 1035 *)
  b14 += b1; (* 1036 *)
  b1 <- ((b1 [<<] 47) [|] (b1 [>>] (64 - 47))) [^] b14; (* 1037 *)
  b8 += b5; (* 1038 *)
  b5 <- ((b5 [<<] 28) [|] (b5 [>>] (64 - 28))) [^] b8; (* 1039 *)
  b10 += b3; (* 1040 *)
  b3 <- ((b3 [<<] 16) [|] (b3 [>>] (64 - 16))) [^] b10; (* 1041 *)
  b12 += b7; (* 1042 *)
  b7 <- ((b7 [<<] 25) [|] (b7 [>>] (64 - 25))) [^] b12; (* 1043 *)
  b1 += k14; (* 1044 *)
  b0 += b1 [+] k13; (* 1045 *)
  b1 <- ((b1 [<<] 41) [|] (b1 [>>] (64 - 41))) [^] b0; (* 1046 *)
  b3 += k16; (* 1047 *)
  b2 += b3 [+] k15; (* 1048 *)
  b3 <- ((b3 [<<] 9) [|] (b3 [>>] (64 - 9))) [^] b2; (* 1049 *)
  b5 += k1; (* 1050 *)
  b4 += b5 [+] k0; (* 1051 *)
  b5 <- ((b5 [<<] 37) [|] (b5 [>>] (64 - 37))) [^] b4; (* 1052 *)
  b7 += k3; (* 1053 *)
  b6 += b7 [+] k2; (* 1054 *)
  b7 <- ((b7 [<<] 31) [|] (b7 [>>] (64 - 31))) [^] b6; (* 1055 *)
  b9 += k5; (* 1056 *)
  b8 += b9 [+] k4; (* 1057 *)
  b9 <- ((b9 [<<] 12) [|] (b9 [>>] (64 - 12))) [^] b8; (* 1058 *)
  b11 += k7; (* 1059 *)
  b10 += b11 [+] k6; (* 1060 *)
  b11 <- ((b11 [<<] 47) [|] (b11 [>>] (64 - 47))) [^] b10; (* 1061 *)
  b13 += k9 [+] t1; (* 1062 *)
  b12 += b13 [+] k8; (* 1063 *)
  b13 <- ((b13 [<<] 44) [|] (b13 [>>] (64 - 44))) [^] b12; (* 1064 *)
  b15 += k11 [+] EC 13; (* 1065 *)
  b14 += b15 [+] k10 [+] t2; (* 1066 *)
  b15 <- ((b15 [<<] 30) [|] (b15 [>>] (64 - 30))) [^] b14; (* 1067 *)
  b0 += b9; (* 1068 *)
  b9 <- ((b9 [<<] 16) [|] (b9 [>>] (64 - 16))) [^] b0; (* 1069 *)
  b2 += b13; (* 1070 *)
  b13 <- ((b13 [<<] 34) [|] (b13 [>>] (64 - 34))) [^] b2; (* 1071 *)
  b6 += b11; (* 1072 *)
  b11 <- ((b11 [<<] 56) [|] (b11 [>>] (64 - 56))) [^] b6; (* 1073 *)
  b4 += b15; (* 1074 *)
  b15 <- ((b15 [<<] 51) [|] (b15 [>>] (64 - 51))) [^] b4; (* 1075 *)
  b10 += b7; (* 1076 *)
  b7 <- ((b7 [<<] 4) [|] (b7 [>>] (64 - 4))) [^] b10; (* 1077 *)
  b12 += b3; (* 1078 *)
  b3 <- ((b3 [<<] 53) [|] (b3 [>>] (64 - 53))) [^] b12; (* 1079 *)
  b14 += b5; (* 1080 *)
  b5 <- ((b5 [<<] 42) [|] (b5 [>>] (64 - 42))) [^] b14; (* 1081 *)
  b8 += b1; (* 1082 *)
  b1 <- ((b1 [<<] 41) [|] (b1 [>>] (64 - 41))) [^] b8; (* 1083 *)
  b0 += b7; (* 1084 *)
  b7 <- ((b7 [<<] 31) [|] (b7 [>>] (64 - 31))) [^] b0; (* 1085 *)
  b2 += b5; (* 1086 *)
  b5 <- ((b5 [<<] 44) [|] (b5 [>>] (64 - 44))) [^] b2; (* 1087 *)
  b4 += b3; (* 1088 *)
  b3 <- ((b3 [<<] 47) [|] (b3 [>>] (64 - 47))) [^] b4; (* 1089 *)
  b6 += b1; (* 1090 *)
  b1 <- ((b1 [<<] 46) [|] (b1 [>>] (64 - 46))) [^] b6; (* 1091 *)
  b12 += b15; (* 1092 *)
  b15 <- ((b15 [<<] 19) [|] (b15 [>>] (64 - 19))) [^] b12; (* 1093 *)
  b14 += b13; (* 1094 *)
  b13 <- ((b13 [<<] 42) [|] (b13 [>>] (64 - 42))) [^] b14; (* 1095 *)
  b8 += b11; (* 1096 *)
  b11 <- ((b11 [<<] 44) [|] (b11 [>>] (64 - 44))) [^] b8; (* 1097 *)
  b10 += b9; (* 1098 *)
  b9 <- ((b9 [<<] 25) [|] (b9 [>>] (64 - 25))) [^] b10; (* 1099 *)
  b0 += b15; (* 1100 *)
  b15 <- ((b15 [<<] 9) [|] (b15 [>>] (64 - 9))) [^] b0; (* 1101 *)
  b2 += b11; (* 1102 *)
  b11 <- ((b11 [<<] 48) [|] (b11 [>>] (64 - 48))) [^] b2; (* 1103 *)
  b6 += b13; (* 1104 *)
  b13 <- ((b13 [<<] 35) [|] (b13 [>>] (64 - 35))) [^] b6; (* 1105 *)
  b4 += b9; (* 1106 *)
  b9 <- ((b9 [<<] 52) [|] (b9 [>>] (64 - 52))) [^] b4; (* 1107 *)
  b14 += b1; (* 1108 *)
  b1 <- ((b1 [<<] 23) [|] (b1 [>>] (64 - 23))) [^] b14; (* 1109 *)
  b8 += b5; (* 1110 *)
  b5 <- ((b5 [<<] 31) [|] (b5 [>>] (64 - 31))) [^] b8; (* 1111 *)
  b10 += b3; (* 1112 *)
  b3 <- ((b3 [<<] 37) [|] (b3 [>>] (64 - 37))) [^] b10; (* 1113 *)
  b12 += b7; (* 1114 *)
  b7 <- ((b7 [<<] 20) [|] (b7 [>>] (64 - 20))) [^] b12; (* 1115 *)
  b1 += k15; (* 1116 *)
  b0 += b1 [+] k14; (* 1117 *)
  b1 <- ((b1 [<<] 24) [|] (b1 [>>] (64 - 24))) [^] b0; (* 1118 *)
  b3 += k0; (* 1119 *)
  b2 += b3 [+] k16; (* 1120 *)
  b3 <- ((b3 [<<] 13) [|] (b3 [>>] (64 - 13))) [^] b2; (* 1121 *)
  b5 += k2; (* 1122 *)
  b4 += b5 [+] k1; (* 1123 *)
  b5 <- ((b5 [<<] 8) [|] (b5 [>>] (64 - 8))) [^] b4; (* 1124 *)
  b7 += k4; (* 1125 *)
  b6 += b7 [+] k3; (* 1126 *)
  b7 <- ((b7 [<<] 47) [|] (b7 [>>] (64 - 47))) [^] b6; (* 1127 *)
  b9 += k6; (* 1128 *)
  b8 += b9 [+] k5; (* 1129 *)
  b9 <- ((b9 [<<] 8) [|] (b9 [>>] (64 - 8))) [^] b8; (* 1130 *)
  b11 += k8; (* 1131 *)
  b10 += b11 [+] k7; (* 1132 *)
  b11 <- ((b11 [<<] 17) [|] (b11 [>>] (64 - 17))) [^] b10; (* 1133 *)
  b13 += k10 [+] t2; (* 1134 *)
  b12 += b13 [+] k9; (* 1135 *)
  b13 <- ((b13 [<<] 22) [|] (b13 [>>] (64 - 22))) [^] b12; (* 1136 *)
  b15 += k12 [+] EC 14; (* 1137 *)
  b14 += b15 [+] k11 [+] t0; (* 1138 *)
  b15 <- ((b15 [<<] 37) [|] (b15 [>>] (64 - 37))) [^] b14; (* 1139 *)
  b0 += b9; (* 1140 *)
  b9 <- ((b9 [<<] 38) [|] (b9 [>>] (64 - 38))) [^] b0; (* 1141 *)
  b2 += b13; (* 1142 *)
  b13 <- ((b13 [<<] 19) [|] (b13 [>>] (64 - 19))) [^] b2; (* 1143 *)
  b6 += b11; (* 1144 *)
  b11 <- ((b11 [<<] 10) [|] (b11 [>>] (64 - 10))) [^] b6; (* 1145 *)
  b4 += b15; (* 1146 *)
  b15 <- ((b15 [<<] 55) [|] (b15 [>>] (64 - 55))) [^] b4; (* 1147 *)
  b10 += b7; (* 1148 *)
  b7 <- ((b7 [<<] 49) [|] (b7 [>>] (64 - 49))) [^] b10; (* 1149 *)
  b12 += b3; (* 1150 *)
  b3 <- ((b3 [<<] 18) [|] (b3 [>>] (64 - 18))) [^] b12; (* 1151 *)
  b14 += b5; (* 1152 *)
  b5 <- ((b5 [<<] 23) [|] (b5 [>>] (64 - 23))) [^] b14; (* 1153 *)
  b8 += b1; (* 1154 *)
  b1 <- ((b1 [<<] 52) [|] (b1 [>>] (64 - 52))) [^] b8; (* 1155 *)
  b0 += b7; (* 1156 *)
  b7 <- ((b7 [<<] 33) [|] (b7 [>>] (64 - 33))) [^] b0; (* 1157 *)
  b2 += b5; (* 1158 *)
  b5 <- ((b5 [<<] 4) [|] (b5 [>>] (64 - 4))) [^] b2; (* 1159 *)
  b4 += b3; (* 1160 *)
  b3 <- ((b3 [<<] 51) [|] (b3 [>>] (64 - 51))) [^] b4; (* 1161 *)
  b6 += b1; (* 1162 *)
  b1 <- ((b1 [<<] 13) [|] (b1 [>>] (64 - 13))) [^] b6; (* 1163 *)
  b12 += b15; (* 1164 *)
  b15 <- ((b15 [<<] 34) [|] (b15 [>>] (64 - 34))) [^] b12; (* 1165 *)
  b14 += b13; (* 1166 *)
  b13 <- ((b13 [<<] 41) [|] (b13 [>>] (64 - 41))) [^] b14; (* 1167 *)
  b8 += b11; (* 1168 *)
  b11 <- ((b11 [<<] 59) [|] (b11 [>>] (64 - 59))) [^] b8; (* 1169 *)
  b10 += b9; (* 1170 *)
  b9 <- ((b9 [<<] 17) [|] (b9 [>>] (64 - 17))) [^] b10; (* 1171 *)
  b0 += b15; (* 1172 *)
  b15 <- ((b15 [<<] 5) [|] (b15 [>>] (64 - 5))) [^] b0; (* 1173 *)
  b2 += b11; (* 1174 *)
  b11 <- ((b11 [<<] 20) [|] (b11 [>>] (64 - 20))) [^] b2; (* 1175 *)
  b6 += b13; (* 1176 *)
  b13 <- ((b13 [<<] 48) [|] (b13 [>>] (64 - 48))) [^] b6; (* 1177 *)
  b4 += b9; (* 1178 *)
  b9 <- ((b9 [<<] 41) [|] (b9 [>>] (64 - 41))) [^] b4; (* 1179 *)
  b14 += b1; (* 1180 *)
  b1 <- ((b1 [<<] 47) [|] (b1 [>>] (64 - 47))) [^] b14; (* 1181 *)
  b8 += b5; (* 1182 *)
  b5 <- ((b5 [<<] 28) [|] (b5 [>>] (64 - 28))) [^] b8; (* 1183 *)
  b10 += b3; (* 1184 *)
  b3 <- ((b3 [<<] 16) [|] (b3 [>>] (64 - 16))) [^] b10; (* 1185 *)
  b12 += b7; (* 1186 *)
  b7 <- ((b7 [<<] 25) [|] (b7 [>>] (64 - 25))) [^] b12; (* 1187 *)
  b1 += k16; (* 1188 *)
  b0 += b1 [+] k15; (* 1189 *)
  b1 <- ((b1 [<<] 41) [|] (b1 [>>] (64 - 41))) [^] b0; (* 1190 *)
  b3 += k1; (* 1191 *)
  b2 += b3 [+] k0; (* 1192 *)
  b3 <- ((b3 [<<] 9) [|] (b3 [>>] (64 - 9))) [^] b2; (* 1193 *)
  b5 += k3; (* 1194 *)
  b4 += b5 [+] k2; (* 1195 *)
  b5 <- ((b5 [<<] 37) [|] (b5 [>>] (64 - 37))) [^] b4; (* 1196 *)
  b7 += k5; (* 1197 *)
  b6 += b7 [+] k4; (* 1198 *)
  b7 <- ((b7 [<<] 31) [|] (b7 [>>] (64 - 31))) [^] b6; (* 1199 *)
  b9 += k7; (* 1200 *)
  b8 += b9 [+] k6; (* 1201 *)
  b9 <- ((b9 [<<] 12) [|] (b9 [>>] (64 - 12))) [^] b8; (* 1202 *)
  b11 += k9; (* 1203 *)
  b10 += b11 [+] k8; (* 1204 *)
  b11 <- ((b11 [<<] 47) [|] (b11 [>>] (64 - 47))) [^] b10; (* 1205 *)
  b13 += k11 [+] t0; (* 1206 *)
  b12 += b13 [+] k10; (* 1207 *)
  b13 <- ((b13 [<<] 44) [|] (b13 [>>] (64 - 44))) [^] b12; (* 1208 *)
  b15 += k13 [+] EC 15; (* 1209 *)
  b14 += b15 [+] k12 [+] t1; (* 1210 *)
  b15 <- ((b15 [<<] 30) [|] (b15 [>>] (64 - 30))) [^] b14; (* 1211 *)
  b0 += b9; (* 1212 *)
  b9 <- ((b9 [<<] 16) [|] (b9 [>>] (64 - 16))) [^] b0; (* 1213 *)
  b2 += b13; (* 1214 *)
  b13 <- ((b13 [<<] 34) [|] (b13 [>>] (64 - 34))) [^] b2; (* 1215 *)
  b6 += b11; (* 1216 *)
  b11 <- ((b11 [<<] 56) [|] (b11 [>>] (64 - 56))) [^] b6; (* 1217 *)
  b4 += b15; (* 1218 *)
  b15 <- ((b15 [<<] 51) [|] (b15 [>>] (64 - 51))) [^] b4; (* 1219 *)
  b10 += b7; (* 1220 *)
  b7 <- ((b7 [<<] 4) [|] (b7 [>>] (64 - 4))) [^] b10; (* 1221 *)
  b12 += b3; (* 1222 *)
  b3 <- ((b3 [<<] 53) [|] (b3 [>>] (64 - 53))) [^] b12; (* 1223 *)
  b14 += b5; (* 1224 *)
  b5 <- ((b5 [<<] 42) [|] (b5 [>>] (64 - 42))) [^] b14; (* 1225 *)
  b8 += b1; (* 1226 *)
  b1 <- ((b1 [<<] 41) [|] (b1 [>>] (64 - 41))) [^] b8; (* 1227 *)
  b0 += b7; (* 1228 *)
  b7 <- ((b7 [<<] 31) [|] (b7 [>>] (64 - 31))) [^] b0; (* 1229 *)
  b2 += b5; (* 1230 *)
  b5 <- ((b5 [<<] 44) [|] (b5 [>>] (64 - 44))) [^] b2; (* 1231 *)
  b4 += b3; (* 1232 *)
  b3 <- ((b3 [<<] 47) [|] (b3 [>>] (64 - 47))) [^] b4; (* 1233 *)
  b6 += b1; (* 1234 *)
  b1 <- ((b1 [<<] 46) [|] (b1 [>>] (64 - 46))) [^] b6; (* 1235 *)
  b12 += b15; (* 1236 *)
  b15 <- ((b15 [<<] 19) [|] (b15 [>>] (64 - 19))) [^] b12; (* 1237 *)
  b14 += b13; (* 1238 *)
  b13 <- ((b13 [<<] 42) [|] (b13 [>>] (64 - 42))) [^] b14; (* 1239 *)
  b8 += b11; (* 1240 *)
  b11 <- ((b11 [<<] 44) [|] (b11 [>>] (64 - 44))) [^] b8; (* 1241 *)
  b10 += b9; (* 1242 *)
  b9 <- ((b9 [<<] 25) [|] (b9 [>>] (64 - 25))) [^] b10; (* 1243 *)
  b0 += b15; (* 1244 *)
  b15 <- ((b15 [<<] 9) [|] (b15 [>>] (64 - 9))) [^] b0; (* 1245 *)
  b2 += b11; (* 1246 *)
  b11 <- ((b11 [<<] 48) [|] (b11 [>>] (64 - 48))) [^] b2; (* 1247 *)
  b6 += b13; (* 1248 *)
  b13 <- ((b13 [<<] 35) [|] (b13 [>>] (64 - 35))) [^] b6; (* 1249 *)
  b4 += b9; (* 1250 *)
  b9 <- ((b9 [<<] 52) [|] (b9 [>>] (64 - 52))) [^] b4; (* 1251 *)
  b14 += b1; (* 1252 *)
  b1 <- ((b1 [<<] 23) [|] (b1 [>>] (64 - 23))) [^] b14; (* 1253 *)
  b8 += b5; (* 1254 *)
  b5 <- ((b5 [<<] 31) [|] (b5 [>>] (64 - 31))) [^] b8; (* 1255 *)
  b10 += b3; (* 1256 *)
  b3 <- ((b3 [<<] 37) [|] (b3 [>>] (64 - 37))) [^] b10; (* 1257 *)
  b12 += b7; (* 1258 *)
  b7 <- ((b7 [<<] 20) [|] (b7 [>>] (64 - 20))) [^] b12; (* 1259 *)
  b1 += k0; (* 1260 *)
  b0 += b1 [+] k16; (* 1261 *)
  b1 <- ((b1 [<<] 24) [|] (b1 [>>] (64 - 24))) [^] b0; (* 1262 *)
  b3 += k2; (* 1263 *)
  b2 += b3 [+] k1; (* 1264 *)
  b3 <- ((b3 [<<] 13) [|] (b3 [>>] (64 - 13))) [^] b2; (* 1265 *)
  b5 += k4; (* 1266 *)
  b4 += b5 [+] k3; (* 1267 *)
  b5 <- ((b5 [<<] 8) [|] (b5 [>>] (64 - 8))) [^] b4; (* 1268 *)
  b7 += k6; (* 1269 *)
  b6 += b7 [+] k5; (* 1270 *)
  b7 <- ((b7 [<<] 47) [|] (b7 [>>] (64 - 47))) [^] b6; (* 1271 *)
  b9 += k8; (* 1272 *)
  b8 += b9 [+] k7; (* 1273 *)
  b9 <- ((b9 [<<] 8) [|] (b9 [>>] (64 - 8))) [^] b8; (* 1274 *)
  b11 += k10; (* 1275 *)
  b10 += b11 [+] k9; (* 1276 *)
  b11 <- ((b11 [<<] 17) [|] (b11 [>>] (64 - 17))) [^] b10; (* 1277 *)
  b13 += k12 [+] t1; (* 1278 *)
  b12 += b13 [+] k11; (* 1279 *)
  b13 <- ((b13 [<<] 22) [|] (b13 [>>] (64 - 22))) [^] b12; (* 1280 *)
  b15 += k14 [+] EC 16; (* 1281 *)
  b14 += b15 [+] k13 [+] t2; (* 1282 *)
  b15 <- ((b15 [<<] 37) [|] (b15 [>>] (64 - 37))) [^] b14; (* 1283 *)
  b0 += b9; (* 1284 *)
  b9 <- ((b9 [<<] 38) [|] (b9 [>>] (64 - 38))) [^] b0; (* 1285 *)
  b2 += b13; (* 1286 *)
  b13 <- ((b13 [<<] 19) [|] (b13 [>>] (64 - 19))) [^] b2; (* 1287 *)
  b6 += b11; (* 1288 *)
  b11 <- ((b11 [<<] 10) [|] (b11 [>>] (64 - 10))) [^] b6; (* 1289 *)
  b4 += b15; (* 1290 *)
  b15 <- ((b15 [<<] 55) [|] (b15 [>>] (64 - 55))) [^] b4; (* 1291 *)
  b10 += b7; (* 1292 *)
  b7 <- ((b7 [<<] 49) [|] (b7 [>>] (64 - 49))) [^] b10; (* 1293 *)
  b12 += b3; (* 1294 *)
  b3 <- ((b3 [<<] 18) [|] (b3 [>>] (64 - 18))) [^] b12; (* 1295 *)
  b14 += b5; (* 1296 *)
  b5 <- ((b5 [<<] 23) [|] (b5 [>>] (64 - 23))) [^] b14; (* 1297 *)
  b8 += b1; (* 1298 *)
  b1 <- ((b1 [<<] 52) [|] (b1 [>>] (64 - 52))) [^] b8; (* 1299 *)
  b0 += b7; (* 1300 *)
  b7 <- ((b7 [<<] 33) [|] (b7 [>>] (64 - 33))) [^] b0; (* 1301 *)
  b2 += b5; (* 1302 *)
  b5 <- ((b5 [<<] 4) [|] (b5 [>>] (64 - 4))) [^] b2; (* 1303 *)
  b4 += b3; (* 1304 *)
  b3 <- ((b3 [<<] 51) [|] (b3 [>>] (64 - 51))) [^] b4; (* 1305 *)
  b6 += b1; (* 1306 *)
  b1 <- ((b1 [<<] 13) [|] (b1 [>>] (64 - 13))) [^] b6; (* 1307 *)
  b12 += b15; (* 1308 *)
  b15 <- ((b15 [<<] 34) [|] (b15 [>>] (64 - 34))) [^] b12; (* 1309 *)
  b14 += b13; (* 1310 *)
  b13 <- ((b13 [<<] 41) [|] (b13 [>>] (64 - 41))) [^] b14; (* 1311 *)
  b8 += b11; (* 1312 *)
  b11 <- ((b11 [<<] 59) [|] (b11 [>>] (64 - 59))) [^] b8; (* 1313 *)
  b10 += b9; (* 1314 *)
  b9 <- ((b9 [<<] 17) [|] (b9 [>>] (64 - 17))) [^] b10; (* 1315 *)
  b0 += b15; (* 1316 *)
  b15 <- ((b15 [<<] 5) [|] (b15 [>>] (64 - 5))) [^] b0; (* 1317 *)
  b2 += b11; (* 1318 *)
  b11 <- ((b11 [<<] 20) [|] (b11 [>>] (64 - 20))) [^] b2; (* 1319 *)
  b6 += b13; (* 1320 *)
  b13 <- ((b13 [<<] 48) [|] (b13 [>>] (64 - 48))) [^] b6; (* 1321 *)
  b4 += b9; (* 1322 *)
  b9 <- ((b9 [<<] 41) [|] (b9 [>>] (64 - 41))) [^] b4; (* 1323 *)
  b14 += b1; (* 1324 *)
  b1 <- ((b1 [<<] 47) [|] (b1 [>>] (64 - 47))) [^] b14; (* 1325 *)
  b8 += b5; (* 1326 *)
  b5 <- ((b5 [<<] 28) [|] (b5 [>>] (64 - 28))) [^] b8; (* 1327 *)
  b10 += b3; (* 1328 *)
  b3 <- ((b3 [<<] 16) [|] (b3 [>>] (64 - 16))) [^] b10; (* 1329 *)
  b12 += b7; (* 1330 *)
  b7 <- ((b7 [<<] 25) [|] (b7 [>>] (64 - 25))) [^] b12; (* 1331 *)
  b1 += k1; (* 1332 *)
  b0 += b1 [+] k0; (* 1333 *)
  b1 <- ((b1 [<<] 41) [|] (b1 [>>] (64 - 41))) [^] b0; (* 1334 *)
  b3 += k3; (* 1335 *)
  b2 += b3 [+] k2; (* 1336 *)
  b3 <- ((b3 [<<] 9) [|] (b3 [>>] (64 - 9))) [^] b2; (* 1337 *)
  b5 += k5; (* 1338 *)
  b4 += b5 [+] k4; (* 1339 *)
  b5 <- ((b5 [<<] 37) [|] (b5 [>>] (64 - 37))) [^] b4; (* 1340 *)
  b7 += k7; (* 1341 *)
  b6 += b7 [+] k6; (* 1342 *)
  b7 <- ((b7 [<<] 31) [|] (b7 [>>] (64 - 31))) [^] b6; (* 1343 *)
  b9 += k9; (* 1344 *)
  b8 += b9 [+] k8; (* 1345 *)
  b9 <- ((b9 [<<] 12) [|] (b9 [>>] (64 - 12))) [^] b8; (* 1346 *)
  b11 += k11; (* 1347 *)
  b10 += b11 [+] k10; (* 1348 *)
  b11 <- ((b11 [<<] 47) [|] (b11 [>>] (64 - 47))) [^] b10; (* 1349 *)
  b13 += k13 [+] t2; (* 1350 *)
  b12 += b13 [+] k12; (* 1351 *)
  b13 <- ((b13 [<<] 44) [|] (b13 [>>] (64 - 44))) [^] b12; (* 1352 *)
  b15 += k15 [+] EC 17; (* 1353 *)
  b14 += b15 [+] k14 [+] t0; (* 1354 *)
  b15 <- ((b15 [<<] 30) [|] (b15 [>>] (64 - 30))) [^] b14; (* 1355 *)
  b0 += b9; (* 1356 *)
  b9 <- ((b9 [<<] 16) [|] (b9 [>>] (64 - 16))) [^] b0; (* 1357 *)
  b2 += b13; (* 1358 *)
  b13 <- ((b13 [<<] 34) [|] (b13 [>>] (64 - 34))) [^] b2; (* 1359 *)
  b6 += b11; (* 1360 *)
  b11 <- ((b11 [<<] 56) [|] (b11 [>>] (64 - 56))) [^] b6; (* 1361 *)
  b4 += b15; (* 1362 *)
  b15 <- ((b15 [<<] 51) [|] (b15 [>>] (64 - 51))) [^] b4; (* 1363 *)
  b10 += b7; (* 1364 *)
  b7 <- ((b7 [<<] 4) [|] (b7 [>>] (64 - 4))) [^] b10; (* 1365 *)
  b12 += b3; (* 1366 *)
  b3 <- ((b3 [<<] 53) [|] (b3 [>>] (64 - 53))) [^] b12; (* 1367 *)
  b14 += b5; (* 1368 *)
  b5 <- ((b5 [<<] 42) [|] (b5 [>>] (64 - 42))) [^] b14; (* 1369 *)
  b8 += b1; (* 1370 *)
  b1 <- ((b1 [<<] 41) [|] (b1 [>>] (64 - 41))) [^] b8; (* 1371 *)
  b0 += b7; (* 1372 *)
  b7 <- ((b7 [<<] 31) [|] (b7 [>>] (64 - 31))) [^] b0; (* 1373 *)
  b2 += b5; (* 1374 *)
  b5 <- ((b5 [<<] 44) [|] (b5 [>>] (64 - 44))) [^] b2; (* 1375 *)
  b4 += b3; (* 1376 *)
  b3 <- ((b3 [<<] 47) [|] (b3 [>>] (64 - 47))) [^] b4; (* 1377 *)
  b6 += b1; (* 1378 *)
  b1 <- ((b1 [<<] 46) [|] (b1 [>>] (64 - 46))) [^] b6; (* 1379 *)
  b12 += b15; (* 1380 *)
  b15 <- ((b15 [<<] 19) [|] (b15 [>>] (64 - 19))) [^] b12; (* 1381 *)
  b14 += b13; (* 1382 *)
  b13 <- ((b13 [<<] 42) [|] (b13 [>>] (64 - 42))) [^] b14; (* 1383 *)
  b8 += b11; (* 1384 *)
  b11 <- ((b11 [<<] 44) [|] (b11 [>>] (64 - 44))) [^] b8; (* 1385 *)
  b10 += b9; (* 1386 *)
  b9 <- ((b9 [<<] 25) [|] (b9 [>>] (64 - 25))) [^] b10; (* 1387 *)
  b0 += b15; (* 1388 *)
  b15 <- ((b15 [<<] 9) [|] (b15 [>>] (64 - 9))) [^] b0; (* 1389 *)
  b2 += b11; (* 1390 *)
  b11 <- ((b11 [<<] 48) [|] (b11 [>>] (64 - 48))) [^] b2; (* 1391 *)
  b6 += b13; (* 1392 *)
  b13 <- ((b13 [<<] 35) [|] (b13 [>>] (64 - 35))) [^] b6; (* 1393 *)
  b4 += b9; (* 1394 *)
  b9 <- ((b9 [<<] 52) [|] (b9 [>>] (64 - 52))) [^] b4; (* 1395 *)
  b14 += b1; (* 1396 *)
  b1 <- ((b1 [<<] 23) [|] (b1 [>>] (64 - 23))) [^] b14; (* 1397 *)
  b8 += b5; (* 1398 *)
  b5 <- ((b5 [<<] 31) [|] (b5 [>>] (64 - 31))) [^] b8; (* 1399 *)
  b10 += b3; (* 1400 *)
  b3 <- ((b3 [<<] 37) [|] (b3 [>>] (64 - 37))) [^] b10; (* 1401 *)
  b12 += b7; (* 1402 *)
  b7 <- ((b7 [<<] 20) [|] (b7 [>>] (64 - 20))) [^] b12; (* 1403 *)
  b1 += k2; (* 1404 *)
  b0 += b1 [+] k1; (* 1405 *)
  b1 <- ((b1 [<<] 24) [|] (b1 [>>] (64 - 24))) [^] b0; (* 1406 *)
  b3 += k4; (* 1407 *)
  b2 += b3 [+] k3; (* 1408 *)
  b3 <- ((b3 [<<] 13) [|] (b3 [>>] (64 - 13))) [^] b2; (* 1409 *)
  b5 += k6; (* 1410 *)
  b4 += b5 [+] k5; (* 1411 *)
  b5 <- ((b5 [<<] 8) [|] (b5 [>>] (64 - 8))) [^] b4; (* 1412 *)
  b7 += k8; (* 1413 *)
  b6 += b7 [+] k7; (* 1414 *)
  b7 <- ((b7 [<<] 47) [|] (b7 [>>] (64 - 47))) [^] b6; (* 1415 *)
  b9 += k10; (* 1416 *)
  b8 += b9 [+] k9; (* 1417 *)
  b9 <- ((b9 [<<] 8) [|] (b9 [>>] (64 - 8))) [^] b8; (* 1418 *)
  b11 += k12; (* 1419 *)
  b10 += b11 [+] k11; (* 1420 *)
  b11 <- ((b11 [<<] 17) [|] (b11 [>>] (64 - 17))) [^] b10; (* 1421 *)
  b13 += k14 [+] t0; (* 1422 *)
  b12 += b13 [+] k13; (* 1423 *)
  b13 <- ((b13 [<<] 22) [|] (b13 [>>] (64 - 22))) [^] b12; (* 1424 *)
  b15 += k16 [+] EC 18; (* 1425 *)
  b14 += b15 [+] k15 [+] t1; (* 1426 *)
  b15 <- ((b15 [<<] 37) [|] (b15 [>>] (64 - 37))) [^] b14; (* 1427 *)
  b0 += b9; (* 1428 *)
  b9 <- ((b9 [<<] 38) [|] (b9 [>>] (64 - 38))) [^] b0; (* 1429 *)
  b2 += b13; (* 1430 *)
  b13 <- ((b13 [<<] 19) [|] (b13 [>>] (64 - 19))) [^] b2; (* 1431 *)
  b6 += b11; (* 1432 *)
  b11 <- ((b11 [<<] 10) [|] (b11 [>>] (64 - 10))) [^] b6; (* 1433 *)
  b4 += b15; (* 1434 *)
  b15 <- ((b15 [<<] 55) [|] (b15 [>>] (64 - 55))) [^] b4; (* 1435 *)
  b10 += b7; (* 1436 *)
  b7 <- ((b7 [<<] 49) [|] (b7 [>>] (64 - 49))) [^] b10; (* 1437 *)
  b12 += b3; (* 1438 *)
  b3 <- ((b3 [<<] 18) [|] (b3 [>>] (64 - 18))) [^] b12; (* 1439 *)
  b14 += b5; (* 1440 *)
  b5 <- ((b5 [<<] 23) [|] (b5 [>>] (64 - 23))) [^] b14; (* 1441 *)
  b8 += b1; (* 1442 *)
  b1 <- ((b1 [<<] 52) [|] (b1 [>>] (64 - 52))) [^] b8; (* 1443 *)
  b0 += b7; (* 1444 *)
  b7 <- ((b7 [<<] 33) [|] (b7 [>>] (64 - 33))) [^] b0; (* 1445 *)
  b2 += b5; (* 1446 *)
  b5 <- ((b5 [<<] 4) [|] (b5 [>>] (64 - 4))) [^] b2; (* 1447 *)
  b4 += b3; (* 1448 *)
  b3 <- ((b3 [<<] 51) [|] (b3 [>>] (64 - 51))) [^] b4; (* 1449 *)
  b6 += b1; (* 1450 *)
  b1 <- ((b1 [<<] 13) [|] (b1 [>>] (64 - 13))) [^] b6; (* 1451 *)
  b12 += b15; (* 1452 *)
  b15 <- ((b15 [<<] 34) [|] (b15 [>>] (64 - 34))) [^] b12; (* 1453 *)
  b14 += b13; (* 1454 *)
  b13 <- ((b13 [<<] 41) [|] (b13 [>>] (64 - 41))) [^] b14; (* 1455 *)
  b8 += b11; (* 1456 *)
  b11 <- ((b11 [<<] 59) [|] (b11 [>>] (64 - 59))) [^] b8; (* 1457 *)
  b10 += b9; (* 1458 *)
  b9 <- ((b9 [<<] 17) [|] (b9 [>>] (64 - 17))) [^] b10; (* 1459 *)
  b0 += b15; (* 1460 *)
  b15 <- ((b15 [<<] 5) [|] (b15 [>>] (64 - 5))) [^] b0; (* 1461 *)
  b2 += b11; (* 1462 *)
  b11 <- ((b11 [<<] 20) [|] (b11 [>>] (64 - 20))) [^] b2; (* 1463 *)
  b6 += b13; (* 1464 *)
  b13 <- ((b13 [<<] 48) [|] (b13 [>>] (64 - 48))) [^] b6; (* 1465 *)
  b4 += b9; (* 1466 *)
  b9 <- ((b9 [<<] 41) [|] (b9 [>>] (64 - 41))) [^] b4; (* 1467 *)
  b14 += b1; (* 1468 *)
  b1 <- ((b1 [<<] 47) [|] (b1 [>>] (64 - 47))) [^] b14; (* 1469 *)
  b8 += b5; (* 1470 *)
  b5 <- ((b5 [<<] 28) [|] (b5 [>>] (64 - 28))) [^] b8; (* 1471 *)
  b10 += b3; (* 1472 *)
  b3 <- ((b3 [<<] 16) [|] (b3 [>>] (64 - 16))) [^] b10; (* 1473 *)
  b12 += b7; (* 1474 *)
  b7 <- ((b7 [<<] 25) [|] (b7 [>>] (64 - 25))) [^] b12; (* 1475 *)
  b1 += k3; (* 1476 *)
  b0 += b1 [+] k2; (* 1477 *)
  b1 <- ((b1 [<<] 41) [|] (b1 [>>] (64 - 41))) [^] b0; (* 1478 *)
  b3 += k5; (* 1479 *)
  b2 += b3 [+] k4; (* 1480 *)
  b3 <- ((b3 [<<] 9) [|] (b3 [>>] (64 - 9))) [^] b2; (* 1481 *)
  b5 += k7; (* 1482 *)
  b4 += b5 [+] k6; (* 1483 *)
  b5 <- ((b5 [<<] 37) [|] (b5 [>>] (64 - 37))) [^] b4; (* 1484 *)
  b7 += k9; (* 1485 *)
  b6 += b7 [+] k8; (* 1486 *)
  b7 <- ((b7 [<<] 31) [|] (b7 [>>] (64 - 31))) [^] b6; (* 1487 *)
  b9 += k11; (* 1488 *)
  b8 += b9 [+] k10; (* 1489 *)
  b9 <- ((b9 [<<] 12) [|] (b9 [>>] (64 - 12))) [^] b8; (* 1490 *)
  b11 += k13; (* 1491 *)
  b10 += b11 [+] k12; (* 1492 *)
  b11 <- ((b11 [<<] 47) [|] (b11 [>>] (64 - 47))) [^] b10; (* 1493 *)
  b13 += k15 [+] t1; (* 1494 *)
  b12 += b13 [+] k14; (* 1495 *)
  b13 <- ((b13 [<<] 44) [|] (b13 [>>] (64 - 44))) [^] b12; (* 1496 *)
  b15 += k0 [+] EC 19; (* 1497 *)
  b14 += b15 [+] k16 [+] t2; (* 1498 *)
  b15 <- ((b15 [<<] 30) [|] (b15 [>>] (64 - 30))) [^] b14; (* 1499 *)
  b0 += b9; (* 1500 *)
  b9 <- ((b9 [<<] 16) [|] (b9 [>>] (64 - 16))) [^] b0; (* 1501 *)
  b2 += b13; (* 1502 *)
  b13 <- ((b13 [<<] 34) [|] (b13 [>>] (64 - 34))) [^] b2; (* 1503 *)
  b6 += b11; (* 1504 *)
  b11 <- ((b11 [<<] 56) [|] (b11 [>>] (64 - 56))) [^] b6; (* 1505 *)
  b4 += b15; (* 1506 *)
  b15 <- ((b15 [<<] 51) [|] (b15 [>>] (64 - 51))) [^] b4; (* 1507 *)
  b10 += b7; (* 1508 *)
  b7 <- ((b7 [<<] 4) [|] (b7 [>>] (64 - 4))) [^] b10; (* 1509 *)
  b12 += b3; (* 1510 *)
  b3 <- ((b3 [<<] 53) [|] (b3 [>>] (64 - 53))) [^] b12; (* 1511 *)
  b14 += b5; (* 1512 *)
  b5 <- ((b5 [<<] 42) [|] (b5 [>>] (64 - 42))) [^] b14; (* 1513 *)
  b8 += b1; (* 1514 *)
  b1 <- ((b1 [<<] 41) [|] (b1 [>>] (64 - 41))) [^] b8; (* 1515 *)
  b0 += b7; (* 1516 *)
  b7 <- ((b7 [<<] 31) [|] (b7 [>>] (64 - 31))) [^] b0; (* 1517 *)
  b2 += b5; (* 1518 *)
  b5 <- ((b5 [<<] 44) [|] (b5 [>>] (64 - 44))) [^] b2; (* 1519 *)
  b4 += b3; (* 1520 *)
  b3 <- ((b3 [<<] 47) [|] (b3 [>>] (64 - 47))) [^] b4; (* 1521 *)
  b6 += b1; (* 1522 *)
  b1 <- ((b1 [<<] 46) [|] (b1 [>>] (64 - 46))) [^] b6; (* 1523 *)
  b12 += b15; (* 1524 *)
  b15 <- ((b15 [<<] 19) [|] (b15 [>>] (64 - 19))) [^] b12; (* 1525 *)
  b14 += b13; (* 1526 *)
  b13 <- ((b13 [<<] 42) [|] (b13 [>>] (64 - 42))) [^] b14; (* 1527 *)
  b8 += b11; (* 1528 *)
  b11 <- ((b11 [<<] 44) [|] (b11 [>>] (64 - 44))) [^] b8; (* 1529 *)
  b10 += b9; (* 1530 *)
  b9 <- ((b9 [<<] 25) [|] (b9 [>>] (64 - 25))) [^] b10; (* 1531 *)
  b0 += b15; (* 1532 *)
  b15 <- ((b15 [<<] 9) [|] (b15 [>>] (64 - 9))) [^] b0; (* 1533 *)
  b2 += b11; (* 1534 *)
  b11 <- ((b11 [<<] 48) [|] (b11 [>>] (64 - 48))) [^] b2; (* 1535 *)
  b6 += b13; (* 1536 *)
  b13 <- ((b13 [<<] 35) [|] (b13 [>>] (64 - 35))) [^] b6; (* 1537 *)
  b4 += b9; (* 1538 *)
  b9 <- ((b9 [<<] 52) [|] (b9 [>>] (64 - 52))) [^] b4; (* 1539 *)
  b14 += b1; (* 1540 *)
  b1 <- ((b1 [<<] 23) [|] (b1 [>>] (64 - 23))) [^] b14; (* 1541 *)
  b8 += b5; (* 1542 *)
  b5 <- ((b5 [<<] 31) [|] (b5 [>>] (64 - 31))) [^] b8; (* 1543 *)
  b10 += b3; (* 1544 *)
  b3 <- ((b3 [<<] 37) [|] (b3 [>>] (64 - 37))) [^] b10; (* 1545 *)
  b12 += b7; (* 1546 *)
  b7 <- ((b7 [<<] 20) [|] (b7 [>>] (64 - 20))) [^] b12; (* 1547 *)
  (Out 0) <- b0 [+] k3; (* 1549 *)
  (Out 1) <- b1 [+] k4; (* 1550 *)
  (Out 2) <- b2 [+] k5; (* 1551 *)
  (Out 3) <- b3 [+] k6; (* 1552 *)
  (Out 4) <- b4 [+] k7; (* 1553 *)
  (Out 5) <- b5 [+] k8; (* 1554 *)
  (Out 6) <- b6 [+] k9; (* 1555 *)
  (Out 7) <- b7 [+] k10; (* 1556 *)
  (Out 8) <- b8 [+] k11; (* 1557 *)
  (Out 9) <- b9 [+] k12; (* 1558 *)
  (Out 10) <- b10 [+] k13; (* 1559 *)
  (Out 11) <- b11 [+] k14; (* 1560 *)
  (Out 12) <- b12 [+] k15; (* 1561 *)
  (Out 13) <- b13 [+] k16 [+] t2; (* 1562 *)
  (Out 14) <- b14 [+] k0 [+] t0; (* 1563 *)
  (Out 15) <- b15 [+] k1 [+] EC 20 (* 1564 *)
].

(** crypter/crypter1024.go:1567-3724, func (tf *threefish1024) decrypt. *)
Definition decrypt1024_body : list stmt := [
  b0 <- EV (In 0); (* 1569 *)
  b1 <- EV (In 1); (* 1570 *)
  b2 <- EV (In 2); (* 1571 *)
  b3 <- EV (In 3); (* 1572 *)
  b4 <- EV (In 4); (* 1573 *)
  b5 <- EV (In 5); (* 1574 *)
  b6 <- EV (In 6); (* 1575 *)
  b7 <- EV (In 7); (* 1576 *)
  b8 <- EV (In 8); (* 1577 *)
  b9 <- EV (In 9); (* 1578 *)
  b10 <- EV (In 10); (* 1579 *)
  b11 <- EV (In 11); (* 1580 *)
  b12 <- EV (In 12); (* 1581 *)
  b13 <- EV (In 13); (* 1582 *)
  b14 <- EV (In 14); (* 1583 *)
  b15 <- EV (In 15); (* 1584 *)
  k0 <- EV (XK 0); (* 1586 *)
  k1 <- EV (XK 1); (* 1587 *)
  k2 <- EV (XK 2); (* 1588 *)
  k3 <- EV (XK 3); (* 1589 *)
  k4 <- EV (XK 4); (* 1590 *)
  k5 <- EV (XK 5); (* 1591 *)
  k6 <- EV (XK 6); (* 1592 *)
  k7 <- EV (XK 7); (* 1593 *)
  k8 <- EV (XK 8); (* 1595 *)
  k9 <- EV (XK 9); (* 1596 *)
  k10 <- EV (XK 10); (* 1597 *)
  k11 <- EV (XK 11); (* 1598 *)
  k12 <- EV (XK 12); (* 1599 *)
  k13 <- EV (XK 13); (* 1600 *)
  k14 <- EV (XK 14); (* 1601 *)
  k15 <- EV (XK 15); (* 1602 *)
  k16 <- EV (XK 16); (* 1603 *)
  t0 <- EV (XT 0); (* 1605 *)
  t1 <- EV (XT 1); (* 1606 *)
  t2 <- EV (XT 2); (* 1607 *)
  b0 -= k3; (* 1611 *)
  b1 -= k4; (* 1612 *)
  b2 -= k5; (* 1613 *)
  b3 -= k6; (* 1614 *)
  b4 -= k7; (* 1615 *)
  b5 -= k8; (* 1616 *)
  b6 -= k9; (* 1617 *)
  b7 -= k10; (* 1618 *)
  b8 -= k11; (* 1619 *)
  b9 -= k12; (* 1620 *)
  b10 -= k13; (* 1621 *)
  b11 -= k14; (* 1622 *)
  b12 -= k15; (* 1623 *)
  b13 -= k16 [+] t2; (* 1624 *)
  b14 -= k0 [+] t0; (* 1625 *)
  b15 -= k1 [+] EC 20; (* 1626 *)
  tmp <- b7 [^] b12; (* 1627 *)
  b7 <- (tmp [>>] 20) [|] (tmp [<<] (64 - 20)); (* 1628 *)
  b12 -= b7; (* 1629 *)
  tmp <- b3 [^] b10; (* 1630 *)
  b3 <- (tmp [>>] 37) [|] (tmp [<<] (64 - 37)); (* 1631 *)
  b10 -= b3; (* 1632 *)
  tmp <- b5 [^] b8; (* 1633 *)
  b5 <- (tmp [>>] 31) [|] (tmp [<<] (64 - 31)); (* 1634 *)
  b8 -= b5; (* 1635 *)
  tmp <- b1 [^] b14; (* 1636 *)
  b1 <- (tmp [>>] 23) [|] (tmp [<<] (64 - 23)); (* 1637 *)
  b14 -= b1; (* 1638 *)
  tmp <- b9 [^] b4; (* 1639 *)
  b9 <- (tmp [>>] 52) [|] (tmp [<<] (64 - 52)); (* 1640 *)
  b4 -= b9; (* 1641 *)
  tmp <- b13 [^] b6; (* 1642 *)
  b13 <- (tmp [>>] 35) [|] (tmp [<<] (64 - 35)); (* 1643 *)
  b6 -= b13; (* 1644 *)
  tmp <- b11 [^] b2; (* 1645 *)
  b11 <- (tmp [>>] 48) [|] (tmp [<<] (64 - 48)); (* 1646 *)
  b2 -= b11; (* 1647 *)
  tmp <- b15 [^] b0; (* 1648 *)
  b15 <- (tmp [>>] 9) [|] (tmp [<<] (64 - 9)); (* 1649 *)
  b0 -= b15; (* 1650 *)
  tmp <- b9 [^] b10; (* 1651 *)
  b9 <- (tmp [>>] 25) [|] (tmp [<<] (64 - 25)); (* 1652 *)
  b10 -= b9; (* 1653 *)
  tmp <- b11 [^] b8; (* 1654 *)
  b11 <- (tmp [>>] 44) [|] (tmp [<<] (64 - 44)); (* 1655 *)
  b8 -= b11; (* 1656 *)
  tmp <- b13 [^] b14; (* 1657 *)
  b13 <- (tmp [>>] 42) [|] (tmp [<<] (64 - 42)); (* 1658 *)
  b14 -= b13; (* 1659 *)
  tmp <- b15 [^] b12; (* 1660 *)
  b15 <- (tmp [>>] 19) [|] (tmp [<<] (64 - 19)); (* 1661 *)
  b12 -= b15; (* 1662 *)
  tmp <- b1 [^] b6; (* 1663 *)
  b1 <- (tmp [>>] 46) [|] (tmp [<<] (64 - 46)); (* 1664 *)
  b6 -= b1; (* 1665 *)
  tmp <- b3 [^] b4; (* 1666 *)
  b3 <- (tmp [>>] 47) [|] (tmp [<<] (64 - 47)); (* 1667 *)
  b4 -= b3; (* 1668 *)
  tmp <- b5 [^] b2; (* 1669 *)
  b5 <- (tmp [>>] 44) [|] (tmp [<<] (64 - 44)); (* 1670 *)
  b2 -= b5; (* 1671 *)
  tmp <- b7 [^] b0; (* 1672 *)
  b7 <- (tmp [>>] 31) [|] (tmp [<<] (64 - 31)); (* 1673 *)
  b0 -= b7; (* 1674 *)
  tmp <- b1 [^] b8; (* 1675 *)
  b1 <- (tmp [>>] 41) [|] (tmp [<<] (64 - 41)); (* 1676 *)
  b8 -= b1; (* 1677 *)
  tmp <- b5 [^] b14; (* 1678 *)
  b5 <- (tmp [>>] 42) [|] (tmp [<<] (64 - 42)); (* 1679 *)
  b14 -= b5; (* 1680 *)
  tmp <- b3 [^] b12; (* 1681 *)
  b3 <- (tmp [>>] 53) [|] (tmp [<<] (64 - 53)); (* 1682 *)
  b12 -= b3; (* 1683 *)
  tmp <- b7 [^] b10; (* 1684 *)
  b7 <- (tmp [>>] 4) [|] (tmp [<<] (64 - 4)); (* 1685 *)
  b10 -= b7; (* 1686 *)
  tmp <- b15 [^] b4; (* 1687 *)
  b15 <- (tmp [>>] 51) [|] (tmp [<<] (64 - 51)); (* 1688 *)
  b4 -= b15; (* 1689 *)
  tmp <- b11 [^] b6; (* 1690 *)
  b11 <- (tmp [>>] 56) [|] (tmp [<<] (64 - 56)); (* 1691 *)
  b6 -= b11; (* 1692 *)
  tmp <- b13 [^] b2; (* 1693 *)
  b13 <- (tmp [>>] 34) [|] (tmp [<<] (64 - 34)); (* 1694 *)
  b2 -= b13; (* 1695 *)
  tmp <- b9 [^] b0; (* 1696 *)
  b9 <- (tmp [>>] 16) [|] (tmp [<<] (64 - 16)); (* 1697 *)
  b0 -= b9; (* 1698 *)
  tmp <- b15 [^] b14; (* 1699 *)
  b15 <- (tmp [>>] 30) [|] (tmp [<<] (64 - 30)); (* 1700 *)
  b14 -= b15 [+] k16 [+] t2; (* 1701 *)
  b15 -= k0 [+] EC 19; (* 1702 *)
  tmp <- b13 [^] b12; (* 1703 *)
  b13 <- (tmp [>>] 44) [|] (tmp [<<] (64 - 44)); (* 1704 *)
  b12 -= b13 [+] k14; (* 1705 *)
  b13 -= k15 [+] t1; (* 1706 *)
  tmp <- b11 [^] b10; (* 1707 *)
  b11 <- (tmp [>>] 47) [|] (tmp [<<] (64 - 47)); (* 1708 *)
  b10 -= b11 [+] k12; (* 1709 *)
  b11 -= k13; (* 1710 *)
  tmp <- b9 [^] b8; (* 1711 *)
  b9 <- (tmp [>>] 12) [|] (tmp [<<] (64 - 12)); (* 1712 *)
  b8 -= b9 [+] k10; (* 1713 *)
  b9 -= k11; (* 1714 *)
  tmp <- b7 [^] b6; (* 1715 *)
  b7 <- (tmp [>>] 31) [|] (tmp [<<] (64 - 31)); (* 1716 *)
  b6 -= b7 [+] k8; (* 1717 *)
  b7 -= k9; (* 1718 *)
  tmp <- b5 [^] b4; (* 1719 *)
  b5 <- (tmp [>>] 37) [|] (tmp [<<] (64 - 37)); (* 1720 *)
  b4 -= b5 [+] k6; (* 1721 *)
  b5 -= k7; (* 1722 *)
  tmp <- b3 [^] b2; (* 1723 *)
  b3 <- (tmp [>>] 9) [|] (tmp [<<] (64 - 9)); (* 1724 *)
  b2 -= b3 [+] k4; (* 1725 *)
  b3 -= k5; (* 1726 *)
  tmp <- b1 [^] b0; (* 1727 *)
  b1 <- (tmp [>>] 41) [|] (tmp [<<] (64 - 41)); (* 1728 *)
  b0 -= b1 [+] k2; (* 1729 *)
  b1 -= k3; (* 1730 *)
  tmp <- b7 [^] b12; (* 1731 *)
  b7 <- (tmp [>>] 25) [|] (tmp [<<] (64 - 25)); (* 1732 *)
  b12 -= b7; (* 1733 *)
  tmp <- b3 [^] b10; (* 1734 *)
  b3 <- (tmp [>>] 16) [|] (tmp [<<] (64 - 16)); (* 1735 *)
  b10 -= b3; (* 1736 *)
  tmp <- b5 [^] b8; (* 1737 *)
  b5 <- (tmp [>>] 28) [|] (tmp [<<] (64 - 28)); (* 1738 *)
  b8 -= b5; (* 1739 *)
  tmp <- b1 [^] b14; (* 1740 *)
  b1 <- (tmp [>>] 47) [|] (tmp [<<] (64 - 47)); (* 1741 *)
  b14 -= b1; (* 1742 *)
  tmp <- b9 [^] b4; (* 1743 *)
  b9 <- (tmp [>>] 41) [|] (tmp [<<] (64 - 41)); (* 1744 *)
  b4 -= b9; (* 1745 *)
  tmp <- b13 [^] b6; (* 1746 *)
  b13 <- (tmp [>>] 48) [|] (tmp [<<] (64 - 48)); (* 1747 *)
  b6 -= b13; (* 1748 *)
  tmp <- b11 [^] b2; (* 1749 *)
  b11 <- (tmp [>>] 20) [|] (tmp [<<] (64 - 20)); (* 1750 *)
  b2 -= b11; (* 1751 *)
  tmp <- b15 [^] b0; (* 1752 *)
  b15 <- (tmp [>>] 5) [|] (tmp [<<] (64 - 5)); (* 1753 *)
  b0 -= b15; (* 1754 *)
  tmp <- b9 [^] b10; (* 1755 *)
  b9 <- (tmp [>>] 17) [|] (tmp [<<] (64 - 17)); (* 1756 *)
  b10 -= b9; (* 1757 *)
  tmp <- b11 [^] b8; (* 1758 *)
  b11 <- (tmp [>>] 59) [|] (tmp [<<] (64 - 59)); (* 1759 *)
  b8 -= b11; (* 1760 *)
  tmp <- b13 [^] b14; (* 1761 *)
  b13 <- (tmp [>>] 41) [|] (tmp [<<] (64 - 41)); (* 1762 *)
  b14 -= b13; (* 1763 *)
  tmp <- b15 [^] b12; (* 1764 *)
  b15 <- (tmp [>>] 34) [|] (tmp [<<] (64 - 34)); (* 1765 *)
  b12 -= b15; (* 1766 *)
  tmp <- b1 [^] b6; (* 1767 *)
  b1 <- (tmp [>>] 13) [|] (tmp [<<] (64 - 13)); (* 1768 *)
  b6 -= b1; (* 1769 *)
  tmp <- b3 [^] b4; (* 1770 *)
  b3 <- (tmp [>>] 51) [|] (tmp [<<] (64 - 51)); (* 1771 *)
  b4 -= b3; (* 1772 *)
  tmp <- b5 [^] b2; (* 1773 *)
  b5 <- (tmp [>>] 4) [|] (tmp [<<] (64 - 4)); (* 1774 *)
  b2 -= b5; (* 1775 *)
  tmp <- b7 [^] b0; (* 1776 *)
  b7 <- (tmp [>>] 33) [|] (tmp [<<] (64 - 33)); (* 1777 *)
  b0 -= b7; (* 1778 *)
  tmp <- b1 [^] b8; (* 1779 *)
  b1 <- (tmp [>>] 52) [|] (tmp [<<] (64 - 52)); (* 1780 *)
  b8 -= b1; (* 1781 *)
  tmp <- b5 [^] b14; (* 1782 *)
  b5 <- (tmp [>>] 23) [|] (tmp [<<] (64 - 23)); (* 1783 *)
  b14 -= b5; (* 1784 *)
  tmp <- b3 [^] b12; (* 1785 *)
  b3 <- (tmp [>>] 18) [|] (tmp [<<] (64 - 18)); (* 1786 *)
  b12 -= b3; (* 1787 *)
  tmp <- b7 [^] b10; (* 1788 *)
  b7 <- (tmp [>>] 49) [|] (tmp [<<] (64 - 49)); (* 1789 *)
  b10 -= b7; (* 1790 *)
  tmp <- b15 [^] b4; (* 1791 *)
  b15 <- (tmp [>>] 55) [|] (tmp [<<] (64 - 55)); (* 1792 *)
  b4 -= b15; (* 1793 *)
  tmp <- b11 [^] b6; (* 1794 *)
  b11 <- (tmp [>>] 10) [|] (tmp [<<] (64 - 10)); (* 1795 *)
  b6 -= b11; (* 1796 *)
  tmp <- b13 [^] b2; (* 1797 *)
  b13 <- (tmp [>>] 19) [|] (tmp [<<] (64 - 19)); (* 1798 *)
  b2 -= b13; (* 1799 *)
  tmp <- b9 [^] b0; (* 1800 *)
  b9 <- (tmp [>>] 38) [|] (tmp [<<] (64 - 38)); (* 1801 *)
  b0 -= b9; (* 1802 *)
  tmp <- b15 [^] b14; (* 1803 *)
  b15 <- (tmp [>>] 37) [|] (tmp [<<] (64 - 37)); (* 1804 *)
  b14 -= b15 [+] k15 [+] t1; (* 1805 *)
  b15 -= k16 [+] EC 18; (* 1806 *)
  tmp <- b13 [^] b12; (* 1807 *)
  b13 <- (tmp [>>] 22) [|] (tmp [<<] (64 - 22)); (* 1808 *)
  b12 -= b13 [+] k13; (* 1809 *)
  b13 -= k14 [+] t0; (* 1810 *)
  tmp <- b11 [^] b10; (* 1811 *)
  b11 <- (tmp [>>] 17) [|] (tmp [<<] (64 - 17)); (* 1812 *)
  b10 -= b11 [+] k11; (* 1813 *)
  b11 -= k12; (* 1814 *)
  tmp <- b9 [^] b8; (* 1815 *)
  b9 <- (tmp [>>] 8) [|] (tmp [<<] (64 - 8)); (* 1816 *)
  b8 -= b9 [+] k9; (* 1817 *)
  b9 -= k10; (* 1818 *)
  tmp <- b7 [^] b6; (* 1819 *)
  b7 <- (tmp [>>] 47) [|] (tmp [<<] (64 - 47)); (* 1820 *)
  b6 -= b7 [+] k7; (* 1821 *)
  b7 -= k8; (* 1822 *)
  tmp <- b5 [^] b4; (* 1823 *)
  b5 <- (tmp [>>] 8) [|] (tmp [<<] (64 - 8)); (* 1824 *)
  b4 -= b5 [+] k5; (* 1825 *)
  b5 -= k6; (* 1826 *)
  tmp <- b3 [^] b2; (* 1827 *)
  b3 <- (tmp [>>] 13) [|] (tmp [<<] (64 - 13)); (* 1828 *)
  b2 -= b3 [+] k3; (* 1829 *)
  b3 -= k4; (* 1830 *)
  tmp <- b1 [^] b0; (* 1831 *)
  b1 <- (tmp [>>] 24) [|] (tmp [<<] (64 - 24)); (* 1832 *)
  b0 -= b1 [+] k1; (* 1833 *)
  b1 -= k2; (* 1834 *)
  tmp <- b7 [^] b12; (* 1835 *)
  b7 <- (tmp [>>] 20) [|] (tmp [<<] (64 - 20)); (* 1836 *)
  b12 -= b7; (* 1837 *)
  tmp <- b3 [^] b10; (* 1838 *)
  b3 <- (tmp [>>] 37) [|] (tmp [<<] (64 - 37)); (* 1839 *)
  b10 -= b3; (* 1840 *)
  tmp <- b5 [^] b8; (* 1841 *)
  b5 <- (tmp [>>] 31) [|] (tmp [<<] (64 - 31)); (* 1842 *)
  b8 -= b5; (* 1843 *)
  tmp <- b1 [^] b14; (* 1844 *)
  b1 <- (tmp [>>] 23) [|] (tmp [<<] (64 - 23)); (* 1845 *)
  b14 -= b1; (* 1846 *)
  tmp <- b9 [^] b4; (* 1847 *)
  b9 <- (tmp [>>] 52) [|] (tmp [<<] (64 - 52)); (* 1848 *)
  b4 -= b9; (* 1849 *)
  tmp <- b13 [^] b6; (* 1850 *)
  b13 <- (tmp [>>] 35) [|] (tmp [<<] (64 - 35)); (* 1851 *)
  b6 -= b13; (* 1852 *)
  tmp <- b11 [^] b2; (* 1853 *)
  b11 <- (tmp [>>] 48) [|] (tmp [<<] (64 - 48)); (* 1854 *)
  b2 -= b11; (* 1855 *)
  tmp <- b15 [^] b0; (* 1856 *)
  b15 <- (tmp [>>] 9) [|] (tmp [<<] (64 - 9)); (* 1857 *)
  b0 -= b15; (* 1858 *)
  tmp <- b9 [^] b10; (* 1859 *)
  b9 <- (tmp [>>] 25) [|] (tmp [<<] (64 - 25)); (* 1860 *)
  b10 -= b9; (* 1861 *)
  tmp <- b11 [^] b8; (* 1862 *)
  b11 <- (tmp [>>] 44) [|] (tmp [<<] (64 - 44)); (* 1863 *)
  b8 -= b11; (* 1864 *)
  tmp <- b13 [^] b14; (* 1865 *)
  b13 <- (tmp [>>] 42) [|] (tmp [<<] (64 - 42)); (* 1866 *)
  b14 -= b13; (* 1867 *)
  tmp <- b15 [^] b12; (* 1868 *)
  b15 <- (tmp [>>] 19) [|] (tmp [<<] (64 - 19)); (* 1869 *)
  b12 -= b15; (* 1870 *)
  tmp <- b1 [^] b6; (* 1871 *)
  b1 <- (tmp [>>] 46) [|] (tmp [<<] (64 - 46)); (* 1872 *)
  b6 -= b1; (* 1873 *)
  tmp <- b3 [^] b4; (* 1874 *)
  b3 <- (tmp [>>] 47) [|] (tmp [<<] (64 - 47)); (* 1875 *)
  b4 -= b3; (* 1876 *)
  tmp <- b5 [^] b2; (* 1877 *)
  b5 <- (tmp [>>] 44) [|] (tmp [<<] (64 - 44)); (* 1878 *)
  b2 -= b5; (* 1879 *)
  tmp <- b7 [^] b0; (* 1880 *)
  b7 <- (tmp [>>] 31) [|] (tmp [<<] (64 - 31)); (* 1881 *)
  b0 -= b7; (* 1882 *)
  tmp <- b1 [^] b8; (* 1883 *)
  b1 <- (tmp [>>] 41) [|] (tmp [<<] (64 - 41)); (* 1884 *)
  b8 -= b1; (* 1885 *)
  tmp <- b5 [^] b14; (* 1886 *)
  b5 <- (tmp [>>] 42) [|] (tmp [<<] (64 - 42)); (* 1887 *)
  b14 -= b5; (* 1888 *)
  tmp <- b3 [^] b12; (* 1889 *)
  b3 <- (tmp [>>] 53) [|] (tmp [<<] (64 - 53)); (* 1890 *)
  b12 -= b3; (* 1891 *)
  tmp <- b7 [^] b10; (* 1892 *)
  b7 <- (tmp [>>] 4) [|] (tmp [<<] (64 - 4)); (* 1893 *)
  b10 -= b7; (* 1894 *)
  tmp <- b15 [^] b4; (* 1895 *)
  b15 <- (tmp [>>] 51) [|] (tmp [<<] (64 - 51)); (* 1896 *)
  b4 -= b15; (* 1897 *)
  tmp <- b11 [^] b6; (* 1898 *)
  b11 <- (tmp [>>] 56) [|] (tmp [<<] (64 - 56)); (* 1899 *)
  b6 -= b11; (* 1900 *)
  tmp <- b13 [^] b2; (* 1901 *)
  b13 <- (tmp [>>] 34) [|] (tmp [<<] (64 - 34)); (* 1902 *)
  b2 -= b13; (* 1903 *)
  tmp <- b9 [^] b0; (* 1904 *)
  b9 <- (tmp [>>] 16) [|] (tmp [<<] (64 - 16)); (* 1905 *)
  b0 -= b9; (* 1906 *)
  tmp <- b15 [^] b14; (* 1907 *)
  b15 <- (tmp [>>] 30) [|] (tmp [<<] (64 - 30)); (* 1908 *)
  b14 -= b15 [+] k14 [+] t0; (* 1909 *)
  b15 -= k15 [+] EC 17; (* 1910 *)
  tmp <- b13 [^] b12; (* 1911 *)
  b13 <- (tmp [>>] 44) [|] (tmp [<<] (64 - 44)); (* 1912 *)
  b12 -= b13 [+] k12; (* 1913 *)
  b13 -= k13 [+] t2; (* 1914 *)
  tmp <- b11 [^] b10; (* 1915 *)
  b11 <- (tmp [>>] 47) [|] (tmp [<<] (64 - 47)); (* 1916 *)
  b10 -= b11 [+] k10; (* 1917 *)
  b11 -= k11; (* 1918 *)
  tmp <- b9 [^] b8; (* 1919 *)
  b9 <- (tmp [>>] 12) [|] (tmp [<<] (64 - 12)); (* 1920 *)
  b8 -= b9 [+] k8; (* 1921 *)
  b9 -= k9; (* 1922 *)
  tmp <- b7 [^] b6; (* 1923 *)
  b7 <- (tmp [>>] 31) [|] (tmp [<<] (64 - 31)); (* 1924 *)
  b6 -= b7 [+] k6; (* 1925 *)
  b7 -= k7; (* 1926 *)
  tmp <- b5 [^] b4; (* 1927 *)
  b5 <- (tmp [>>] 37) [|] (tmp [<<] (64 - 37)); (* 1928 *)
  b4 -= b5 [+] k4; (* 1929 *)
  b5 -= k5; (* 1930 *)
  tmp <- b3 [^] b2; (* 1931 *)
  b3 <- (tmp [>>] 9) [|] (tmp [<<] (64 - 9)); (* 1932 *)
  b2 -= b3 [+] k2; (* 1933 *)
  b3 -= k3; (* 1934 *)
  tmp <- b1 [^] b0; (* 1935 *)
  b1 <- (tmp [>>] 41) [|] (tmp [<<] (64 - 41)); (* 1936 *)
  b0 -= b1 [+] k0; (* 1937 *)
  b1 -= k1; (* 1938 *)
  tmp <- b7 [^] b12; (* 1939 *)
  b7 <- (tmp [>>] 25) [|] (tmp [<<] (64 - 25)); (* 1940 *)
  b12 -= b7; (* 1941 *)
  tmp <- b3 [^] b10; (* 1942 *)
  b3 <- (tmp [>>] 16) [|] (tmp [<<] (64 - 16)); (* 1943 *)
  b10 -= b3; (* 1944 *)
  tmp <- b5 [^] b8; (* 1945 *)
  b5 <- (tmp [>>] 28) [|] (tmp [<<] (64 - 28)); (* 1946 *)
  b8 -= b5; (* 1947 *)
  tmp <- b1 [^] b14; (* 1948 *)
  b1 <- (tmp [>>] 47) [|] (tmp [<<] (64 - 47)); (* 1949 *)
  b14 -= b1; (* 1950 *)
  tmp <- b9 [^] b4; (* 1951 *)
  b9 <- (tmp [>>] 41) [|] (tmp [<<] (64 - 41)); (* 1952 *)
  b4 -= b9; (* 1953 *)
  tmp <- b13 [^] b6; (* 1954 *)
  b13 <- (tmp [>>] 48) [|] (tmp [<<] (64 - 48)); (* 1955 *)
  b6 -= b13; (* 1956 *)
  tmp <- b11 [^] b2; (* 1957 *)
  b11 <- (tmp [>>] 20) [|] (tmp [<<] (64 - 20)); (* 1958 *)
  b2 -= b11; (* 1959 *)
  tmp <- b15 [^] b0; (* 1960 *)
  b15 <- (tmp [>>] 5) [|] (tmp [<<] (64 - 5)); (* 1961 *)
  b0 -= b15; (* 1962 *)
  tmp <- b9 [^] b10; (* 1963 *)
  b9 <- (tmp [>>] 17) [|] (tmp [<<] (64 - 17)); (* 1964 *)
  b10 -= b9; (* 1965 *)
  tmp <- b11 [^] b8; (* 1966 *)
  b11 <- (tmp [>>] 59) [|] (tmp [<<] (64 - 59)); (* 1967 *)
  b8 -= b11; (* 1968 *)
  tmp <- b13 [^] b14; (* 1969 *)
  b13 <- (tmp [>>] 41) [|] (tmp [<<] (64 - 41)); (* 1970 *)
  b14 -= b13; (* 1971 *)
  tmp <- b15 [^] b12; (* 1972 *)
  b15 <- (tmp [>>] 34) [|] (tmp [<<] (64 - 34)); (* 1973 *)
  b12 -= b15; (* 1974 *)
  tmp <- b1 [^] b6; (* 1975 *)
  b1 <- (tmp [>>] 13) [|] (tmp [<<] (64 - 13)); (* 1976 *)
  b6 -= b1; (* 1977 *)
  tmp <- b3 [^] b4; (* 1978 *)
  b3 <- (tmp [>>] 51) [|] (tmp [<<] (64 - 51)); (* 1979 *)
  b4 -= b3; (* 1980 *)
  tmp <- b5 [^] b2; (* 1981 *)
  b5 <- (tmp [>>] 4) [|] (tmp [<<] (64 - 4)); (* 1982 *)
  b2 -= b5; (* 1983 *)
  tmp <- b7 [^] b0; (* 1984 *)
  b7 <- (tmp [>>] 33) [|] (tmp [<<] (64 - 33)); (* 1985 *)
  b0 -= b7; (* 1986 *)
  tmp <- b1 [^] b8; (* 1987 *)
  b1 <- (tmp [>>] 52) [|] (tmp [<<] (64 - 52)); (* 1988 *)
  b8 -= b1; (* 1989 *)
  tmp <- b5 [^] b14; (* 1990 *)
  b5 <- (tmp [>>] 23) [|] (tmp [<<] (64 - 23)); (* 1991 *)
  b14 -= b5; (* 1992 *)
  tmp <- b3 [^] b12; (* 1993 *)
  b3 <- (tmp [>>] 18) [|] (tmp [<<] (64 - 18)); (* 1994 *)
  b12 -= b3; (* 1995 *)
  tmp <- b7 [^] b10; (* 1996 *)
  b7 <- (tmp [>>] 49) [|] (tmp [<<] (64 - 49)); (* 1997 *)
  b10 -= b7; (* 1998 *)
  tmp <- b15 [^] b4; (* 1999 *)
  b15 <- (tmp [>>] 55) [|] (tmp [<<] (64 - 55)); (* 2000 *)
  b4 -= b15; (* 2001 *)
  tmp <- b11 [^] b6; (* 2002 *)
  b11 <- (tmp [>>] 10) [|] (tmp [<<] (64 - 10)); (* 2003 *)
  b6 -= b11; (* 2004 *)
  tmp <- b13 [^] b2; (* 2005 *)
  b13 <- (tmp [>>] 19) [|] (tmp [<<] (64 - 19)); (* 2006 *)
  b2 -= b13; (* 2007 *)
  tmp <- b9 [^] b0; (* 2008 *)
  b9 <- (tmp [>>] 38) [|] (tmp [<<] (64 - 38)); (* 2009 *)
  b0 -= b9; (* 2010 *)
  tmp <- b15 [^] b14; (* 2011 *)
  b15 <- (tmp [>>] 37) [|] (tmp [<<] (64 - 37)); (* 2012 *)
  b14 -= b15 [+] k13 [+] t2; (* 2013 *)
  b15 -= k14 [+] EC 16; (* 2014 *)
  tmp <- b13 [^] b12; (* 2015 *)
  b13 <- (tmp [>>] 22) [|] (tmp [<<] (64 - 22)); (* 2016 *)
  b12 -= b13 [+] k11; (* 2017 *)
  b13 -= k12 [+] t1; (* 2018 *)
  tmp <- b11 [^] b10; (* 2019 *)
  b11 <- (tmp [>>] 17) [|] (tmp [<<] (64 - 17)); (* 2020 *)
  b10 -= b11 [+] k9; (* 2021 *)
  b11 -= k10; (* 2022 *)
  tmp <- b9 [^] b8; (* 2023 *)
  b9 <- (tmp [>>] 8) [|] (tmp [<<] (64 - 8)); (* 2024 *)
  b8 -= b9 [+] k7; (* 2025 *)
  b9 -= k8; (* 2026 *)
  tmp <- b7 [^] b6; (* 2027 *)
  b7 <- (tmp [>>] 47) [|] (tmp [<<] (64 - 47)); (* 2028 *)
  b6 -= b7 [+] k5; (* 2029 *)
  b7 -= k6; (* 2030 *)
  tmp <- b5 [^] b4; (* 2031 *)
  b5 <- (tmp [>>] 8) [|] (tmp [<<] (64 - 8)); (* 2032 *)
  b4 -= b5 [+] k3; (* 2033 *)
  b5 -= k4; (* 2034 *)
  tmp <- b3 [^] b2; (* 2035 *)
  b3 <- (tmp [>>] 13) [|] (tmp [<<] (64 - 13)); (* 2036 *)
  b2 -= b3 [+] k1; (* 2037 *)
  b3 -= k2; (* 2038 *)
  tmp <- b1 [^] b0; (* 2039 *)
  b1 <- (tmp [>>] 24) [|] (tmp [<<] (64 - 24)); (* 2040 *)
  b0 -= b1 [+] k16; (* 2041 *)
  b1 -= k0; (* 2042 *)
  tmp <- b7 [^] b12; (* 2043 *)
  b7 <- (tmp [>>] 20) [|] (tmp [<<] (64 - 20)); (* 2044 *)
  b12 -= b7; (* 2045 *)
  tmp <- b3 [^] b10; (* 2046 *)
  b3 <- (tmp [>>] 37) [|] (tmp [<<] (64 - 37)); (* 2047 *)
  b10 -= b3; (* 2048 *)
  tmp <- b5 [^] b8; (* 2049 *)
  b5 <- (tmp [>>] 31) [|] (tmp [<<] (64 - 31)); (* 2050 *)
  b8 -= b5; (* 2051 *)
  tmp <- b1 [^] b14; (* 2052 *)
  b1 <- (tmp [>>] 23) [|] (tmp [<<] (64 - 23)); (* 2053 *)
  b14 -= b1; (* 2054 *)
  tmp <- b9 [^] b4; (* 2055 *)
  b9 <- (tmp [>>] 52) [|] (tmp [<<] (64 - 52)); (* 2056 *)
  b4 -= b9; (* 2057 *)
  tmp <- b13 [^] b6; (* 2058 *)
  b13 <- (tmp [>>] 35) [|] (tmp [<<] (64 - 35)); (* 2059 *)
  b6 -= b13; (* 2060 *)
  tmp <- b11 [^] b2; (* 2061 *)
  b11 <- (tmp [>>] 48) [|] (tmp [<<] (64 - 48)); (* 2062 *)
  b2 -= b11; (* 2063 *)
  tmp <- b15 [^] b0; (* 2064 *)
  b15 <- (tmp [>>] 9) [|] (tmp [<<] (64 - 9)); (* 2065 *)
  b0 -= b15; (* 2066 *)
  tmp <- b9 [^] b10; (* 2067 *)
  b9 <- (tmp [>>] 25) [|] (tmp [<<] (64 - 25)); (* 2068 *)
  b10 -= b9; (* 2069 *)
  tmp <- b11 [^] b8; (* 2070 *)
  b11 <- (tmp [>>] 44) [|] (tmp [<<] (64 - 44)); (* 2071 *)
  b8 -= b11; (* 2072 *)
  tmp <- b13 [^] b14; (* 2073 *)
  b13 <- (tmp [>>] 42) [|] (tmp [<<] (64 - 42)); (* 2074 *)
  b14 -= b13; (* 2075 *)
  tmp <- b15 [^] b12; (* 2076 *)
  b15 <- (tmp [>>] 19) [|] (tmp [<<] (64 - 19)); (* 2077 *)
  b12 -= b15; (* 2078 *)
  tmp <- b1 [^] b6; (* 2079 *)
  b1 <- (tmp [>>] 46) [|] (tmp [<<] (64 - 46)); (* 2080 *)
  b6 -= b1; (* 2081 *)
  tmp <- b3 [^] b4; (* 2082 *)
  b3 <- (tmp [>>] 47) [|] (tmp [<<] (64 - 47)); (* 2083 *)
  b4 -= b3; (* 2084 *)
  tmp <- b5 [^] b2; (* 2085 *)
  b5 <- (tmp [>>] 44) [|] (tmp [<<] (64 - 44)); (* 2086 *)
  b2 -= b5; (* 2087 *)
  tmp <- b7 [^] b0; (* 2088 *)
  b7 <- (tmp [>>] 31) [|] (tmp [<<] (64 - 31)); (* 2089 *)
  b0 -= b7; (* 2090 *)
  tmp <- b1 [^] b8; (* 2091 *)
  b1 <- (tmp [>>] 41) [|] (tmp [<<] (64 - 41)); (* 2092 *)
  b8 -= b1; (* 2093 *)
  tmp <- b5 [^] b14; (* 2094 *)
  b5 <- (tmp [>>] 42) [|] (tmp [<<] (64 - 42)); (* 2095 *)
  b14 -= b5; (* 2096 *)
  tmp <- b3 [^] b12; (* 2097 *)
  b3 <- (tmp [>>] 53) [|] (tmp [<<] (64 - 53)); (* 2098 *)
  b12 -= b3; (* 2099 *)
  tmp <- b7 [^] b10; (* 2100 *)
  b7 <- (tmp [>>] 4) [|] (tmp [<<] (64 - 4)); (* 2101 *)
  b10 -= b7; (* 2102 *)
  tmp <- b15 [^] b4; (* 2103 *)
  b15 <- (tmp [>>] 51) [|] (tmp [<<] (64 - 51)); (* 2104 *)
  b4 -= b15; (* 2105 *)
  tmp <- b11 [^] b6; (* 2106 *)
  b11 <- (tmp [>>] 56) [|] (tmp [<<] (64 - 56)); (* 2107 *)
  b6 -= b11; (* 2108 *)
  tmp <- b13 [^] b2; (* 2109 *)
  b13 <- (tmp [>>] 34) [|] (tmp [<<] (64 - 34)); (* 2110 *)
  b2 -= b13; (* 2111 *)
  tmp <- b9 [^] b0; (* 2112 *)
  b9 <- (tmp [>>] 16) [|] (tmp [<<] (64 - 16)); (* 2113 *)
  b0 -= b9; (* 2114 *)
  tmp <- b15 [^] b14; (* 2115 *)
  b15 <- (tmp [>>] 30) [|] (tmp [<<] (64 - 30)); (* 2116 *)
  b14 -= b15 [+] k12 [+] t1; (* 2117 *)
  b15 -= k13 [+] EC 15; (* 2118 *)
  tmp <- b13 [^] b12; (* 2119 *)
  b13 <- (tmp [>>] 44) [|] (tmp [<<] (64 - 44)); (* 2120 *)
  b12 -= b13 [+] k10; (* 2121 *)
  b13 -= k11 [+] t0; (* 2122 *)
  tmp <- b11 [^] b10; (* 2123 *)
  b11 <- (tmp [>>] 47) [|] (tmp [<<] (64 - 47)); (* 2124 *)
  b10 -= b11 [+] k8; (* 2125 *)
  b11 -= k9; (* 2126 *)
  tmp <- b9 [^] b8; (* 2127 *)
  b9 <- (tmp [>>] 12) [|] (tmp [<<] (64 - 12)); (* 2128 *)
  b8 -= b9 [+] k6; (* 2129 *)
  b9 -= k7; (* 2130 *)
  tmp <- b7 [^] b6; (* 2131 *)
  b7 <- (tmp [>>] 31) [|] (tmp [<<] (64 - 31)); (* 2132 *)
  b6 -= b7 [+] k4; (* 2133 *)
  b7 -= k5; (* 2134 *)
  tmp <- b5 [^] b4; (* 2135 *)
  b5 <- (tmp [>>] 37) [|] (tmp [<<] (64 - 37)); (* 2136 *)
  b4 -= b5 [+] k2; (* 2137 *)
  b5 -= k3; (* 2138 *)
  tmp <- b3 [^] b2; (* 2139 *)
  b3 <- (tmp [>>] 9) [|] (tmp [<<] (64 - 9)); (* 2140 *)
  b2 -= b3 [+] k0; (* 2141 *)
  b3 -= k1; (* 2142 *)
  tmp <- b1 [^] b0; (* 2143 *)
  b1 <- (tmp [>>] 41) [|] (tmp [<<] (64 - 41)); (* 2144 *)
  b0 -= b1 [+] k15; (* 2145 *)
  b1 -= k16; (* 2146 *)
  tmp <- b7 [^] b12; (* 2147 *)
  b7 <- (tmp [>>] 25) [|] (tmp [<<] (64 - 25)); (* 2148 *)
  b12 -= b7; (* 2149 *)
  tmp <- b3 [^] b10; (* 2150 *)
  b3 <- (tmp [>>] 16) [|] (tmp [<<] (64 - 16)); (* 2151 *)
  b10 -= b3; (* 2152 *)
  tmp <- b5 [^] b8; (* 2153 *)
  b5 <- (tmp [>>] 28) [|] (tmp [<<] (64 - 28)); (* 2154 *)
  b8 -= b5; (* 2155 *)
  tmp <- b1 [^] b14; (* 2156 *)
  b1 <- (tmp [>>] 47) [|] (tmp [<<] (64 - 47)); (* 2157 *)
  b14 -= b1; (* 2158 *)
  tmp <- b9 [^] b4; (* 2159 *)
  b9 <- (tmp [>>] 41) [|] (tmp [<<] (64 - 41)); (* 2160 *)
  b4 -= b9; (* 2161 *)
  tmp <- b13 [^] b6; (* 2162 *)
  b13 <- (tmp [>>] 48) [|] (tmp [<<] (64 - 48)); (* 2163 *)
  b6 -= b13; (* 2164 *)
  tmp <- b11 [^] b2; (* 2165 *)
  b11 <- (tmp [>>] 20) [|] (tmp [<<] (64 - 20)); (* 2166 *)
  b2 -= b11; (* 2167 *)
  tmp <- b15 [^] b0; (* 2168 *)
  b15 <- (tmp [>>] 5) [|] (tmp [<<] (64 - 5)); (* 2169 *)
  b0 -= b15; (* 2170 *)
  tmp <- b9 [^] b10; (* 2171 *)
  b9 <- (tmp [>>] 17) [|] (tmp [<<] (64 - 17)); (* 2172 *)
  b10 -= b9; (* 2173 *)
  tmp <- b11 [^] b8; (* 2174 *)
  b11 <- (tmp [>>] 59) [|] (tmp [<<] (64 - 59)); (* 2175 *)
  b8 -= b11; (* 2176 *)
  tmp <- b13 [^] b14; (* 2177 *)
  b13 <- (tmp [>>] 41) [|] (tmp [<<] (64 - 41)); (* 2178 *)
  b14 -= b13; (* 2179 *)
  tmp <- b15 [^] b12; (* 2180 *)
  b15 <- (tmp [>>] 34) [|] (tmp [<<] (64 - 34)); (* 2181 *)
  b12 -= b15; (* 2182 *)
  tmp <- b1 [^] b6; (* 2183 *)
  b1 <- (tmp [>>] 13) [|] (tmp [<<] (64 - 13)); (* 2184 *)
  b6 -= b1; (* 2185 *)
  tmp <- b3 [^] b4; (* 2186 *)
  b3 <- (tmp [>>] 51) [|] (tmp [<<] (64 - 51)); (* 2187 *)
  b4 -= b3; (* 2188 *)
  tmp <- b5 [^] b2; (* 2189 *)
  b5 <- (tmp [>>] 4) [|] (tmp [<<] (64 - 4)); (* 2190 *)
  b2 -= b5; (* 2191 *)
  tmp <- b7 [^] b0; (* 2192 *)
  b7 <- (tmp [>>] 33) [|] (tmp [<<] (64 - 33)); (* 2193 *)
  b0 -= b7; (* 2194 *)
  tmp <- b1 [^] b8; (* 2195 *)
  b1 <- (tmp [>>] 52) [|] (tmp [<<] (64 - 52)); (* 2196 *)
  b8 -= b1; (* 2197 *)
  tmp <- b5 [^] b14; (* 2198 *)
  b5 <- (tmp [>>] 23) [|] (tmp [<<] (64 - 23)); (* 2199 *)
  b14 -= b5; (* 2200 *)
  tmp <- b3 [^] b12; (* 2201 *)
  b3 <- (tmp [>>] 18) [|] (tmp [<<] (64 - 18)); (* 2202 *)
  b12 -= b3; (* 2203 *)
  tmp <- b7 [^] b10; (* 2204 *)
  b7 <- (tmp [>>] 49) [|] (tmp [<<] (64 - 49)); (* 2205 *)
  b10 -= b7; (* 2206 *)
  tmp <- b15 [^] b4; (* 2207 *)
  b15 <- (tmp [>>] 55) [|] (tmp [<<] (64 - 55)); (* 2208 *)
  b4 -= b15; (* 2209 *)
  tmp <- b11 [^] b6; (* 2210 *)
  b11 <- (tmp [>>] 10) [|] (tmp [<<] (64 - 10)); (* 2211 *)
  b6 -= b11; (* 2212 *)
  tmp <- b13 [^] b2; (* 2213 *)
  b13 <- (tmp [>>] 19) [|] (tmp [<<] (64 - 19)); (* 2214 *)
  b2 -= b13; (* 2215 *)
  tmp <- b9 [^] b0; (* 2216 *)
  b9 <- (tmp [>>] 38) [|] (tmp [<<] (64 - 38)); (* 2217 *)
  b0 -= b9; (* 2218 *)
  tmp <- b15 [^] b14; (* 2219 *)
  b15 <- (tmp [>>] 37) [|] (tmp [<<] (64 - 37)); (* 2220 *)
  b14 -= b15 [+] k11 [+] t0; (* 2221 *)
  b15 -= k12 [+] EC 14; (* 2222 *)
  tmp <- b13 [^] b12; (* 2223 *)
  b13 <- (tmp [>>] 22) [|] (tmp [<<] (64 - 22)); (* 2224 *)
  b12 -= b13 [+] k9; (* 2225 *)
  b13 -= k10 [+] t2; (* 2226 *)
  tmp <- b11 [^] b10; (* 2227 *)
  b11 <- (tmp [>>] 17) [|] (tmp [<<] (64 - 17)); (* 2228 *)
  b10 -= b11 [+] k7; (* 2229 *)
  b11 -= k8; (* 2230 *)
  tmp <- b9 [^] b8; (* 2231 *)
  b9 <- (tmp [>>] 8) [|] (tmp [<<] (64 - 8)); (* 2232 *)
  b8 -= b9 [+] k5; (* 2233 *)
  b9 -= k6; (* 2234 *)
  tmp <- b7 [^] b6; (* 2235 *)
  b7 <- (tmp [>>] 47) [|] (tmp [<<] (64 - 47)); (* 2236 *)
  b6 -= b7 [+] k3; (* 2237 *)
  b7 -= k4; (* 2238 *)
  tmp <- b5 [^] b4; (* 2239 *)
  b5 <- (tmp [>>] 8) [|] (tmp [<<] (64 - 8)); (* 2240 *)
  b4 -= b5 [+] k1; (* 2241 *)
  b5 -= k2; (* 2242 *)
  tmp <- b3 [^] b2; (* 2243 *)
  b3 <- (tmp [>>] 13) [|] (tmp [<<] (64 - 13)); (* 2244 *)
  b2 -= b3 [+] k16; (* 2245 *)
  b3 -= k0; (* 2246 *)
  tmp <- b1 [^] b0; (* 2247 *)
  b1 <- (tmp [>>] 24) [|] (tmp [<<] (64 - 24)); (* 2248 *)
  b0 -= b1 [+] k14; (* 2249 *)
  b1 -= k15; (* 2250 *)
  tmp <- b7 [^] b12; (* 2251 *)
  b7 <- (tmp [>>] 20) [|] (tmp [<<] (64 - 20)); (* 2252 *)
  b12 -= b7; (* 2253 *)
  tmp <- b3 [^] b10; (* 2254 *)
  b3 <- (tmp [>>] 37) [|] (tmp [<<] (64 - 37)); (* 2255 *)
  b10 -= b3; (* 2256 *)
  tmp <- b5 [^] b8; (* 2257 *)
  b5 <- (tmp [>>] 31) [|] (tmp [<<] (64 - 31)); (* 2258 *)
  b8 -= b5; (* 2259 *)
  tmp <- b1 [^] b14; (* 2260 *)
  b1 <- (tmp [>>] 23) [|] (tmp [<<] (64 - 23)); (* 2261 *)
  b14 -= b1; (* 2262 *)
  tmp <- b9 [^] b4; (* 2263 *)
  b9 <- (tmp [>>] 52) [|] (tmp [<<] (64 - 52)); (* 2264 *)
  b4 -= b9; (* 2265 *)
  tmp <- b13 [^] b6; (* 2266 *)
  b13 <- (tmp [>>] 35) [|] (tmp [<<] (64 - 35)); (* 2267 *)
  b6 -= b13; (* 2268 *)
  tmp <- b11 [^] b2; (* 2269 *)
  b11 <- (tmp [>>] 48) [|] (tmp [<<] (64 - 48)); (* 2270 *)
  b2 -= b11; (* 2271 *)
  tmp <- b15 [^] b0; (* 2272 *)
  b15 <- (tmp [>>] 9) [|] (tmp [<<] (64 - 9)); (* 2273 *)
  b0 -= b15; (* 2274 *)
  tmp <- b9 [^] b10; (* 2275 *)
  b9 <- (tmp [>>] 25) [|] (tmp [<<] (64 - 25)); (* 2276 *)
  b10 -= b9; (* 2277 *)
  tmp <- b11 [^] b8; (* 2278 *)
  b11 <- (tmp [>>] 44) [|] (tmp [<<] (64 - 44)); (* 2279 *)
  b8 -= b11; (* 2280 *)
  tmp <- b13 [^] b14; (* 2281 *)
  b13 <- (tmp [>>] 42) [|] (tmp [<<] (64 - 42)); (* 2282 *)
  b14 -= b13; (* 2283 *)
  tmp <- b15 [^] b12; (* 2284 *)
  b15 <- (tmp [>>] 19) [|] (tmp [<<] (64 - 19)); (* 2285 *)
  b12 -= b15; (* 2286 *)
  tmp <- b1 [^] b6; (* 2287 *)
  b1 <- (tmp [>>] 46) [|] (tmp [<<] (64 - 46)); (* 2288 *)
  b6 -= b1; (* 2289 *)
  tmp <- b3 [^] b4; (* 2290 *)
  b3 <- (tmp [>>] 47) [|] (tmp [<<] (64 - 47)); (* 2291 *)
  b4 -= b3; (* 2292 *)
  tmp <- b5 [^] b2; (* 2293 *)
  b5 <- (tmp [>>] 44) [|] (tmp [<<] (64 - 44)); (* 2294 *)
  b2 -= b5; (* 2295 *)
  tmp <- b7 [^] b0; (* 2296 *)
  b7 <- (tmp [>>] 31) [|] (tmp [<<] (64 - 31)); (* 2297 *)
  b0 -= b7; (* 2298 *)
  tmp <- b1 [^] b8; (* 2299 *)
  b1 <- (tmp [>>] 41) [|] (tmp [<<] (64 - 41)); (* 2300 *)
  b8 -= b1; (* 2301 *)
  tmp <- b5 [^] b14; (* 2302 *)
  b5 <- (tmp [>>] 42) [|] (tmp [<<] (64 - 42)); (* 2303 *)
  b14 -= b5; (* 2304 *)
  tmp <- b3 [^] b12; (* 2305 *)
  b3 <- (tmp [>>] 53) [|] (tmp [<<] (64 - 53)); (* 2306 *)
  b12 -= b3; (* 2307 *)
  tmp <- b7 [^] b10; (* 2308 *)
  b7 <- (tmp [>>] 4) [|] (tmp [<<] (64 - 4)); (* 2309 *)
  b10 -= b7; (* 2310 *)
  tmp <- b15 [^] b4; (* 2311 *)
  b15 <- (tmp [>>] 51) [|] (tmp [<<] (64 - 51)); (* 2312 *)
  b4 -= b15; (* 2313 *)
  tmp <- b11 [^] b6; (* 2314 *)
  b11 <- (tmp [>>] 56) [|] (tmp [<<] (64 - 56)); (* 2315 *)
  b6 -= b11; (* 2316 *)
  tmp <- b13 [^] b2; (* 2317 *)
  b13 <- (tmp [>>] 34) [|] (tmp [<<] (64 - 34)); (* 2318 *)
  b2 -= b13; (* 2319 *)
  tmp <- b9 [^] b0; (* 2320 *)
  b9 <- (tmp [>>] 16) [|] (tmp [<<] (64 - 16)); (* 2321 *)
  b0 -= b9; (* 2322 *)
  tmp <- b15 [^] b14; (* 2323 *)
  b15 <- (tmp [>>] 30) [|] (tmp [<<] (64 - 30)); (* 2324 *)
  b14 -= b15 [+] k10 [+] t2; (* 2325 *)
  b15 -= k11 [+] EC 13; (* 2326 *)
  tmp <- b13 [^] b12; (* 2327 *)
  b13 <- (tmp [>>] 44) [|] (tmp [<<] (64 - 44)); (* 2328 *)
  b12 -= b13 [+] k8; (* 2329 *)
  b13 -= k9 [+] t1; (* 2330 *)
  tmp <- b11 [^] b10; (* 2331 *)
  b11 <- (tmp [>>] 47) [|] (tmp [<<] (64 - 47)); (* 2332 *)
  b10 -= b11 [+] k6; (* 2333 *)
  b11 -= k7; (* 2334 *)
  tmp <- b9 [^] b8; (* 2335 *)
  b9 <- (tmp [>>] 12) [|] (tmp [<<] (64 - 12)); (* 2336 *)
  b8 -= b9 [+] k4; (* 2337 *)
  b9 -= k5; (* 2338 *)
  tmp <- b7 [^] b6; (* 2339 *)
  b7 <- (tmp [>>] 31) [|] (tmp [<<] (64 - 31)); (* 2340 *)
  b6 -= b7 [+] k2; (* 2341 *)
  b7 -= k3; (* 2342 *)
  tmp <- b5 [^] b4; (* 2343 *)
  b5 <- (tmp [>>] 37) [|] (tmp [<<] (64 - 37)); (* 2344 *)
  b4 -= b5 [+] k0; (* 2345 *)
  b5 -= k1; (* 2346 *)
  tmp <- b3 [^] b2; (* 2347 *)
  b3 <- (tmp [>>] 9) [|] (tmp [<<] (64 - 9)); (* 2348 *)
  b2 -= b3 [+] k15; (* 2349 *)
  b3 -= k16; (* 2350 *)
  tmp <- b1 [^] b0; (* 2351 *)
  b1 <- (tmp [>>] 41) [|] (tmp [<<] (64 - 41)); (* 2352 *)
  b0 -= b1 [+] k13; (* 2353 *)
  b1 -= k14; (* 2354 *)
  tmp <- b7 [^] b12; (* 2355 *)
  b7 <- (tmp [>>] 25) [|] (tmp [<<] (64 - 25)); (* 2356 *)
  b12 -= b7; (* 2357 *)
  tmp <- b3 [^] b10; (* 2358 *)
  b3 <- (tmp [>>] 16) [|] (tmp [<<] (64 - 16)); (* 2359 *)
  b10 -= b3; (* 2360 *)
  tmp <- b5 [^] b8; (* 2361 *)
  b5 <- (tmp [>>] 28) [|] (tmp [<<] (64 - 28)); (* 2362 *)
  b8 -= b5; (* 2363 *)
  tmp <- b1 [^] b14; (* 2364 *)
  b1 <- (tmp [>>] 47) [|] (tmp [<<] (64 - 47)); (* 2365 *)
  b14 -= b1; (* 2366 *)
  tmp <- b9 [^] b4; (* 2367 *)
  b9 <- (tmp [>>] 41) [|] (tmp [<<] (64 - 41)); (* 2368 *)
  b4 -= b9; (* 2369 *)
  tmp <- b13 [^] b6; (* 2370 *)
  b13 <- (tmp [>>] 48) [|] (tmp [<<] (64 - 48)); (* 2371 *)
  b6 -= b13; (* 2372 *)
  tmp <- b11 [^] b2; (* 2373 *)
  b11 <- (tmp [>>] 20) [|] (tmp [<<] (64 - 20)); (* 2374 *)
  b2 -= b11; (* 2375 *)
  tmp <- b15 [^] b0; (* 2376 *)
  b15 <- (tmp [>>] 5) [|] (tmp [<<] (64 - 5)); (* 2377 *)
  b0 -= b15; (* 2378 *)
  tmp <- b9 [^] b10; (* 2379 *)
  b9 <- (tmp [>>] 17) [|] (tmp [<<] (64 - 17)); (* 2380 *)
  b10 -= b9; (* 2381 *)
  tmp <- b11 [^] b8; (* 2382 *)
  b11 <- (tmp [>>] 59) [|] (tmp [<<] (64 - 59)); (* 2383 *)
  b8 -= b11; (* 2384 *)
  tmp <- b13 [^] b14; (* 2385 *)
  b13 <- (tmp [>>] 41) [|] (tmp [<<] (64 - 41)); (* 2386 *)
  b14 -= b13; (* 2387 *)
  tmp <- b15 [^] b12; (* 2388 *)
  b15 <- (tmp [>>] 34) [|] (tmp [<<] (64 - 34)); (* 2389 *)
  b12 -= b15; (* 2390 *)
  tmp <- b1 [^] b6; (* 2391 *)
  b1 <- (tmp [>>] 13) [|] (tmp [<<] (64 - 13)); (* 2392 *)
  b6 -= b1; (* 2393 *)
  tmp <- b3 [^] b4; (* 2394 *)
  b3 <- (tmp [>>] 51) [|] (tmp [<<] (64 - 51)); (* 2395 *)
  b4 -= b3; (* 2396 *)
  tmp <- b5 [^] b2; (* 2397 *)
  b5 <- (tmp [>>] 4) [|] (tmp [<<] (64 - 4)); (* 2398 *)
  b2 -= b5; (* 2399 *)
  tmp <- b7 [^] b0; (* 2400 *)
  b7 <- (tmp [>>] 33) [|] (tmp [<<] (64 - 33)); (* 2401 *)
  b0 -= b7; (* 2402 *)
  tmp <- b1 [^] b8; (* 2403 *)
  b1 <- (tmp [>>] 52) [|] (tmp [<<] (64 - 52)); (* 2404 *)
  b8 -= b1; (* 2405 *)
  tmp <- b5 [^] b14; (* 2406 *)
  b5 <- (tmp [>>] 23) [|] (tmp [<<] (64 - 23)); (* 2407 *)
  b14 -= b5; (* 2408 *)
  tmp <- b3 [^] b12; (* 2409 *)
  b3 <- (tmp [>>] 18) [|] (tmp [<<] (64 - 18)); (* 2410 *)
  b12 -= b3; (* 2411 *)
  tmp <- b7 [^] b10; (* 2412 *)
  b7 <- (tmp [>>] 49) [|] (tmp [<<] (64 - 49)); (* 2413 *)
  b10 -= b7; (* 2414 *)
  tmp <- b15 [^] b4; (* 2415 *)
  b15 <- (tmp [>>] 55) [|] (tmp [<<] (64 - 55)); (* 2416 *)
  b4 -= b15; (* 2417 *)
  tmp <- b11 [^] b6; (* 2418 *)
  b11 <- (tmp [>>] 10) [|] (tmp [<<] (64 - 10)); (* 2419 *)
  b6 -= b11; (* 2420 *)
  tmp <- b13 [^] b2; (* 2421 *)
  b13 <- (tmp [>>] 19) [|] (tmp [<<] (64 - 19)); (* 2422 *)
  b2 -= b13; (* 2423 *)
  tmp <- b9 [^] b0; (* 2424 *)
  b9 <- (tmp [>>] 38) [|] (tmp [<<] (64 - 38)); (* 2425 *)
  b0 -= b9; (* 2426 *)
  tmp <- b15 [^] b14; (* 2427 *)
  b15 <- (tmp [>>] 37) [|] (tmp [<<] (64 - 37)); (* 2428 *)
  b14 -= b15 [+] k9 [+] t1; (* 2429 *)
  b15 -= k10 [+] EC 12; (* 2430 *)
  tmp <- b13 [^] b12; (* 2431 *)
  b13 <- (tmp [>>] 22) [|] (tmp [<<] (64 - 22)); (* 2432 *)
  b12 -= b13 [+] k7; (* 2433 *)
  b13 -= k8 [+] t0; (* 2434 *)
  tmp <- b11 [^] b10; (* 2435 *)
  b11 <- (tmp [>>] 17) [|] (tmp [<<] (64 - 17)); (* 2436 *)
  b10 -= b11 [+] k5; (* 2437 *)
  b11 -= k6; (* 2438 *)
  tmp <- b9 [^] b8; (* 2439 *)
  b9 <- (tmp [>>] 8) [|] (tmp [<<] (64 - 8)); (* 2440 *)
  b8 -= b9 [+] k3; (* 2441 *)
  b9 -= k4; (* 2442 *)
  tmp <- b7 [^] b6; (* 2443 *)
  b7 <- (tmp [>>] 47) [|] (tmp [<<] (64 - 47)); (* 2444 *)
  b6 -= b7 [+] k1; (* 2445 *)
  b7 -= k2; (* 2446 *)
  tmp <- b5 [^] b4; (* 2447 *)
  b5 <- (tmp [>>] 8) [|] (tmp [<<] (64 - 8)); (* 2448 *)
  b4 -= b5 [+] k16; (* 2449 *)
  b5 -= k0; (* 2450 *)
  tmp <- b3 [^] b2; (* 2451 *)
  b3 <- (tmp [>>] 13) [|] (tmp [<<] (64 - 13)); (* 2452 *)
  b2 -= b3 [+] k14; (* 2453 *)
  b3 -= k15; (* 2454 *)
  tmp <- b1 [^] b0; (* 2455 *)
  b1 <- (tmp [>>] 24) [|] (tmp [<<] (64 - 24)); (* 2456 *)
  b0 -= b1 [+] k12; (* 2457 *)
  b1 -= k13; (* 2458 *)
  tmp <- b7 [^] b12; (* 2459 *)
  b7 <- (tmp [>>] 20) [|] (tmp [<<] (64 - 20)); (* 2460 *)
  b12 -= b7; (* 2461 *)
  tmp <- b3 [^] b10; (* 2462 *)
  b3 <- (tmp [>>] 37) [|] (tmp [<<] (64 - 37)); (* 2463 *)
  b10 -= b3; (* 2464 *)
  tmp <- b5 [^] b8; (* 2465 *)
  b5 <- (tmp [>>] 31) [|] (tmp [<<] (64 - 31)); (* 2466 *)
  b8 -= b5; (* 2467 *)
  tmp <- b1 [^] b14; (* 2468 *)
  b1 <- (tmp [>>] 23) [|] (tmp [<<] (64 - 23)); (* 2469 *)
  b14 -= b1; (* 2470 *)
  tmp <- b9 [^] b4; (* 2471 *)
  b9 <- (tmp [>>] 52) [|] (tmp [<<] (64 - 52)); (* 2472 *)
  b4 -= b9; (* 2473 *)
  tmp <- b13 [^] b6; (* 2474 *)
  b13 <- (tmp [>>] 35) [|] (tmp [<<] (64 - 35)); (* 2475 *)
  b6 -= b13; (* 2476 *)
  tmp <- b11 [^] b2; (* 2477 *)
  b11 <- (tmp [>>] 48) [|] (tmp [<<] (64 - 48)); (* 2478 *)
  b2 -= b11; (* 2479 *)
  tmp <- b15 [^] b0; (* 2480 *)
  b15 <- (tmp [>>] 9) [|] (tmp [<<] (64 - 9)); (* 2481 *)
  b0 -= b15; (* 2482 *)
  tmp <- b9 [^] b10; (* 2483 *)
  b9 <- (tmp [>>] 25) [|] (tmp [<<] (64 - 25)); (* 2484 *)
  b10 -= b9; (* 2485 *)
  tmp <- b11 [^] b8; (* 2486 *)
  b11 <- (tmp [>>] 44) [|] (tmp [<<] (64 - 44)); (* 2487 *)
  b8 -= b11; (* 2488 *)
  tmp <- b13 [^] b14; (* 2489 *)
  b13 <- (tmp [>>] 42) [|] (tmp [<<] (64 - 42)); (* 2490 *)
  b14 -= b13; (* 2491 *)
  tmp <- b15 [^] b12; (* 2492 *)
  b15 <- (tmp [>>] 19) [|] (tmp [<<] (64 - 19)); (* 2493 *)
  b12 -= b15; (* 2494 *)
  tmp <- b1 [^] b6; (* 2495 *)
  b1 <- (tmp [>>] 46) [|] (tmp [<<] (64 - 46)); (* 2496 *)
  b6 -= b1; (* 2497 *)
  tmp <- b3 [^] b4; (* 2498 *)
  b3 <- (tmp [>>] 47) [|] (tmp [<<] (64 - 47)); (* 2499 *)
  b4 -= b3; (* 2500 *)
  tmp <- b5 [^] b2; (* 2501 *)
  b5 <- (tmp [>>] 44) [|] (tmp [<<] (64 - 44)); (* 2502 *)
  b2 -= b5; (* 2503 *)
  tmp <- b7 [^] b0; (* 2504 *)
  b7 <- (tmp [>>] 31) [|] (tmp [<<] (64 - 31)); (* 2505 *)
  b0 -= b7; (* 2506 *)
  tmp <- b1 [^] b8; (* 2507 *)
  b1 <- (tmp [>>] 41) [|] (tmp [<<] (64 - 41)); (* 2508 *)
  b8 -= b1; (* 2509 *)
  tmp <- b5 [^] b14; (* 2510 *)
  b5 <- (tmp [>>] 42) [|] (tmp [<<] (64 - 42)); (* 2511 *)
  b14 -= b5; (* 2512 *)
  tmp <- b3 [^] b12; (* 2513 *)
  b3 <- (tmp [>>] 53) [|] (tmp [<<] (64 - 53)); (* 2514 *)
  b12 -= b3; (* 2515 *)
  tmp <- b7 [^] b10; (* 2516 *)
  b7 <- (tmp [>>] 4) [|] (tmp [<<] (64 - 4)); (* 2517 *)
  b10 -= b7; (* 2518 *)
  tmp <- b15 [^] b4; (* 2519 *)
  b15 <- (tmp [>>] 51) [|] (tmp [<<] (64 - 51)); (* 2520 *)
  b4 -= b15; (* 2521 *)
  tmp <- b11 [^] b6; (* 2522 *)
  b11 <- (tmp [>>] 56) [|] (tmp [<<] (64 - 56)); (* 2523 *)
  b6 -= b11; (* 2524 *)
  tmp <- b13 [^] b2; (* 2525 *)
  b13 <- (tmp [>>] 34) [|] (tmp [<<] (64 - 34)); (* 2526 *)
  b2 -= b13; (* 2527 *)
  tmp <- b9 [^] b0; (* 2528 *)
  b9 <- (tmp [>>] 16) [|] (tmp [<<] (64 - 16)); (* 2529 *)
  b0 -= b9; (* 2530 *)
  tmp <- b15 [^] b14; (* 2531 *)
  b15 <- (tmp [>>] 30) [|] (tmp [<<] (64 - 30)); (* 2532 *)
  b14 -= b15 [+] k8 [+] t0; (* 2533 *)
  b15 -= k9 [+] EC 11; (* 2534 *)
  tmp <- b13 [^] b12; (* 2535 *)
  b13 <- (tmp [>>] 44) [|] (tmp [<<] (64 - 44)); (* 2536 *)
  b12 -= b13 [+] k6; (* 2537 *)
  b13 -= k7 [+] t2; (* 2538 *)
  tmp <- b11 [^] b10; (* 2539 *)
  b11 <- (tmp [>>] 47) [|] (tmp [<<] (64 - 47)); (* 2540 *)
  b10 -= b11 [+] k4; (* 2541 *)
  b11 -= k5; (* 2542 *)
  tmp <- b9 [^] b8; (* 2543 *)
  b9 <- (tmp [>>] 12) [|] (tmp [<<] (64 - 12)); (* 2544 *)
  b8 -= b9 [+] k2; (* 2545 *)
  b9 -= k3; (* 2546 *)
  tmp <- b7 [^] b6; (* 2547 *)
  b7 <- (tmp [>>] 31) [|] (tmp [<<] (64 - 31)); (* 2548 *)
  b6 -= b7 [+] k0; (* 2549 *)
  b7 -= k1; (* 2550 *)
  tmp <- b5 [^] b4; (* 2551 *)
  b5 <- (tmp [>>] 37) [|] (tmp [<<] (64 - 37)); (* 2552 *)
  b4 -= b5 [+] k15; (* 2553 *)
  b5 -= k16; (* 2554 *)
  tmp <- b3 [^] b2; (* 2555 *)
  b3 <- (tmp [>>] 9) [|] (tmp [<<] (64 - 9)); (* 2556 *)
  b2 -= b3 [+] k13; (* 2557 *)
  b3 -= k14; (* 2558 *)
  tmp <- b1 [^] b0; (* 2559 *)
  b1 <- (tmp [>>] 41) [|] (tmp [<<] (64 - 41)); (* 2560 *)
  b0 -= b1 [+] k11; (* 2561 *)
  b1 -= k12; (* 2562 *)
  tmp <- b7 [^] b12; (* 2563 *)
  b7 <- (tmp [>>] 25) [|] (tmp [<<] (64 - 25)); (* 2564 *)
  b12 -= b7; (* 2565 *)
  tmp <- b3 [^] b10; (* 2566 *)
  b3 <- (tmp [>>] 16) [|] (tmp [<<] (64 - 16)); (* 2567 *)
  b10 -= b3; (* 2568 *)
  tmp <- b5 [^] b8; (* 2569 *)
  b5 <- (tmp [>>] 28) [|] (tmp [<<] (64 - 28)); (* 2570 *)
  b8 -= b5; (* 2571 *)
  tmp <- b1 [^] b14; (* 2572 *)
  b1 <- (tmp [>>] 47) [|] (tmp [<<] (64 - 47)); (* 2573 *)
  b14 -= b1; (* 2574 *)
  tmp <- b9 [^] b4; (* 2575 *)
  b9 <- (tmp [>>] 41) [|] (tmp [<<] (64 - 41)); (* 2576 *)
  b4 -= b9; (* 2577 *)
  tmp <- b13 [^] b6; (* 2578 *)
  b13 <- (tmp [>>] 48) [|] (tmp [<<] (64 - 48)); (* 2579 *)
  b6 -= b13; (* 2580 *)
  tmp <- b11 [^] b2; (* 2581 *)
  b11 <- (tmp [>>] 20) [|] (tmp [<<] (64 - 20)); (* 2582 *)
  b2 -= b11; (* 2583 *)
  tmp <- b15 [^] b0; (* 2584 *)
  b15 <- (tmp [>>] 5) [|] (tmp [<<] (64 - 5)); (* 2585 *)
  b0 -= b15; (* 2586 *)
  tmp <- b9 [^] b10; (* 2587 *)
  b9 <- (tmp [>>] 17) [|] (tmp [<<] (64 - 17)); (* 2588 *)
  b10 -= b9; (* 2589 *)
  tmp <- b11 [^] b8; (* 2590 *)
  b11 <- (tmp [>>] 59) [|] (tmp [<<] (64 - 59)); (* 2591 *)
  b8 -= b11; (* 2592 *)
  tmp <- b13 [^] b14; (* 2593 *)
  b13 <- (tmp [>>] 41) [|] (tmp [<<] (64 - 41)); (* 2594 *)
  b14 -= b13; (* 2595 *)
  tmp <- b15 [^] b12; (* 2596 *)
  b15 <- (tmp [>>] 34) [|] (tmp [<<] (64 - 34)); (* 2597 *)
  b12 -= b15; (* 2598 *)
  tmp <- b1 [^] b6; (* 2599 *)
  b1 <- (tmp [>>] 13) [|] (tmp [<<] (64 - 13)); (* 2600 *)
  b6 -= b1; (* 2601 *)
  tmp <- b3 [^] b4; (* 2602 *)
  b3 <- (tmp [>>] 51) [|] (tmp [<<] (64 - 51)); (* 2603 *)
  b4 -= b3; (* 2604 *)
  tmp <- b5 [^] b2; (* 2605 *)
  b5 <- (tmp [>>] 4) [|] (tmp [<<] (64 - 4)); (* 2606 *)
  b2 -= b5; (* 2607 *)
  tmp <- b7 [^] b0; (* 2608 *)
  b7 <- (tmp [>>] 33) [|] (tmp [<<] (64 - 33)); (* 2609 *)
  b0 -= b7; (* 2610 *)
  tmp <- b1 [^] b8; (* 2611 *)
  b1 <- (tmp [>>] 52) [|] (tmp [<<] (64 - 52)); (* 2612 *)
  b8 -= b1; (* 2613 *)
  tmp <- b5 [^] b14; (* 2614 *)
  b5 <- (tmp [>>] 23) [|] (tmp [<<] (64 - 23)); (* 2615 *)
  b14 -= b5; (* 2616 *)
  tmp <- b3 [^] b12; (* 2617 *)
  b3 <- (tmp [>>] 18) [|] (tmp [<<] (64 - 18)); (* 2618 *)
  b12 -= b3; (* 2619 *)
  tmp <- b7 [^] b10; (* 2620 *)
  b7 <- (tmp [>>] 49) [|] (tmp [<<] (64 - 49)); (* 2621 *)
  b10 -= b7; (* 2622 *)
  tmp <- b15 [^] b4; (* 2623 *)
  b15 <- (tmp [>>] 55) [|] (tmp [<<] (64 - 55)); (* 2624 *)
  b4 -= b15; (* 2625 *)
  tmp <- b11 [^] b6; (* 2626 *)
  b11 <- (tmp [>>] 10) [|] (tmp [<<] (64 - 10)); (* 2627 *)
  b6 -= b11; (* 2628 *)
  tmp <- b13 [^] b2; (* 2629 *)
  b13 <- (tmp [>>] 19) [|] (tmp [<<] (64 - 19)); (* 2630 *)
  b2 -= b13; (* 2631 *)
  tmp <- b9 [^] b0; (* 2632 *)
  b9 <- (tmp [>>] 38) [|] (tmp [<<] (64 - 38)); (* 2633 *)
  b0 -= b9; (* 2634 *)
  tmp <- b15 [^] b14; (* 2635 *)
  b15 <- (tmp [>>] 37) [|] (tmp [<<] (64 - 37)); (* 2636 *)
  b14 -= b15 [+] k7 [+] t2; (* 2637 *)
  b15 -= k8 [+] EC 10; (* 2638 *)
  tmp <- b13 [^] b12; (* 2639 *)
  b13 <- (tmp [>>] 22) [|] (tmp [<<] (64 - 22)); (* 2640 *)
  b12 -= b13 [+] k5; (* 2641 *)
  b13 -= k6 [+] t1; (* 2642 *)
  tmp <- b11 [^] b10; (* 2643 *)
  b11 <- (tmp [>>] 17) [|] (tmp [<<] (64 - 17)); (* 2644 *)
  b10 -= b11 [+] k3; (* 2645 *)
  b11 -= k4; (* 2646 *)
  tmp <- b9 [^] b8; (* 2647 *)
  b9 <- (tmp [>>] 8) [|] (tmp [<<] (64 - 8)); (* 2648 *)
  b8 -= b9 [+] k1; (* 2649 *)
  b9 -= k2; (* 2650 *)
  tmp <- b7 [^] b6; (* 2651 *)
  b7 <- (tmp [>>] 47) [|] (tmp [<<] (64 - 47)); (* 2652 *)
  b6 -= b7 [+] k16; (* 2653 *)
  b7 -= k0; (* 2654 *)
  tmp <- b5 [^] b4; (* 2655 *)
  b5 <- (tmp [>>] 8) [|] (tmp [<<] (64 - 8)); (* 2656 *)
  b4 -= b5 [+] k14; (* 2657 *)
  b5 -= k15; (* 2658 *)
  tmp <- b3 [^] b2; (* 2659 *)
  b3 <- (tmp [>>] 13) [|] (tmp [<<] (64 - 13)); (* 2660 *)
  b2 -= b3 [+] k12; (* 2661 *)
  b3 -= k13; (* 2662 *)
  tmp <- b1 [^] b0; (* 2663 *)
  b1 <- (tmp [>>] 24) [|] (tmp [<<] (64 - 24)); (* 2664 *)
  b0 -= b1 [+] k10; (* 2665 *)
  b1 -= k11; (* 2666 *)
  tmp <- b7 [^] b12; (* 2667 *)
  b7 <- (tmp [>>] 20) [|] (tmp [<<] (64 - 20)); (* 2668 *)
  b12 -= b7; (* 2669 *)
  tmp <- b3 [^] b10; (* 2670 *)
  b3 <- (tmp [>>] 37) [|] (tmp [<<] (64 - 37)); (* 2671 *)
  b10 -= b3; (* 2672 *)
  tmp <- b5 [^] b8; (* 2673 *)
  b5 <- (tmp [>>] 31) [|] (tmp [<<] (64 - 31)); (* 2674 *)
  b8 -= b5; (* 2675 *)
  tmp <- b1 [^] b14; (* 2676 *)
  b1 <- (tmp [>>] 23) [|] (tmp [<<] (64 - 23)); (* 2677 *)
  b14 -= b1; (* 2678 *)
  tmp <- b9 [^] b4; (* 2679 *)
  b9 <- (tmp [>>] 52) [|] (tmp [<<] (64 - 52)); (* 2680 *)
  b4 -= b9; (* 2681 *)
  tmp <- b13 [^] b6; (* 2682 *)
  b13 <- (tmp [>>] 35) [|] (tmp [<<] (64 - 35)); (* 2683 *)
  b6 -= b13; (* 2684 *)
  tmp <- b11 [^] b2; (* 2685 *)
  b11 <- (tmp [>>] 48) [|] (tmp [<<] (64 - 48)); (* 2686 *)
  b2 -= b11; (* 2687 *)
  tmp <- b15 [^] b0; (* 2688 *)
  b15 <- (tmp [>>] 9) [|] (tmp [<<] (64 - 9)); (* 2689 *)
  b0 -= b15; (* 2690 *)
  tmp <- b9 [^] b10; (* 2691 *)
  b9 <- (tmp [>>] 25) [|] (tmp [<<] (64 - 25)); (* 2692 *)
  b10 -= b9; (* 2693 *)
  tmp <- b11 [^] b8; (* 2694 *)
  b11 <- (tmp [>>] 44) [|] (tmp [<<] (64 - 44)); (* 2695 *)
  b8 -= b11; (* 2696 *)
  tmp <- b13 [^] b14; (* 2697 *)
  b13 <- (tmp [>>] 42) [|] (tmp [<<] (64 - 42)); (* 2698 *)
  b14 -= b13; (* 2699 *)
  tmp <- b15 [^] b12; (* 2700 *)
  b15 <- (tmp [>>] 19) [|] (tmp [<<] (64 - 19)); (* 2701 *)
  b12 -= b15; (* 2702 *)
  tmp <- b1 [^] b6; (* 2703 *)
  b1 <- (tmp [>>] 46) [|] (tmp [<<] (64 - 46)); (* 2704 *)
  b6 -= b1; (* 2705 *)
  tmp <- b3 [^] b4; (* 2706 *)
  b3 <- (tmp [>>] 47) [|] (tmp [<<] (64 - 47)); (* 2707 *)
  b4 -= b3; (* 2708 *)
  tmp <- b5 [^] b2; (* 2709 *)
  b5 <- (tmp [>>] 44) [|] (tmp [<<] (64 - 44)); (* 2710 *)
  b2 -= b5; (* 2711 *)
  tmp <- b7 [^] b0; (* 2712 *)
  b7 <- (tmp [>>] 31) [|] (tmp [<<] (64 - 31)); (* 2713 *)
  b0 -= b7; (* 2714 *)
  tmp <- b1 [^] b8; (* 2715 *)
  b1 <- (tmp [>>] 41) [|] (tmp [<<] (64 - 41)); (* 2716 *)
  b8 -= b1; (* 2717 *)
  tmp <- b5 [^] b14; (* 2718 *)
  b5 <- (tmp [>>] 42) [|] (tmp [<<] (64 - 42)); (* 2719 *)
  b14 -= b5; (* 2720 *)
  tmp <- b3 [^] b12; (* 2721 *)
  b3 <- (tmp [>>] 53) [|] (tmp [<<] (64 - 53)); (* 2722 *)
  b12 -= b3; (* 2723 *)
  tmp <- b7 [^] b10; (* 2724 *)
  b7 <- (tmp [>>] 4) [|] (tmp [<<] (64 - 4)); (* 2725 *)
  b10 -= b7; (* 2726 *)
  tmp <- b15 [^] b4; (* 2727 *)
  b15 <- (tmp [>>] 51) [|] (tmp [<<] (64 - 51)); (* 2728 *)
  b4 -= b15; (* 2729 *)
  tmp <- b11 [^] b6; (* 2730 *)
  b11 <- (tmp [>>] 56) [|] (tmp [<<] (64 - 56)); (* 2731 *)
  b6 -= b11; (* 2732 *)
  tmp <- b13 [^] b2; (* 2733 *)
  b13 <- (tmp [>>] 34) [|] (tmp [<<] (64 - 34)); (* 2734 *)
  b2 -= b13; (* 2735 *)
  tmp <- b9 [^] b0; (* 2736 *)
  b9 <- (tmp [>>] 16) [|] (tmp [<<] (64 - 16)); (* 2737 *)
  b0 -= b9; (* 2738 *)
  tmp <- b15 [^] b14; (* 2739 *)
  b15 <- (tmp [>>] 30) [|] (tmp [<<] (64 - 30)); (* 2740 *)
  b14 -= b15 [+] k6 [+] t1; (* 2741 *)
  b15 -= k7 [+] EC 9; (* 2742 *)
  tmp <- b13 [^] b12; (* 2743 *)
  b13 <- (tmp [>>] 44) [|] (tmp [<<] (64 - 44)); (* 2744 *)
  b12 -= b13 [+] k4; (* 2745 *)
  b13 -= k5 [+] t0; (* 2746 *)
  tmp <- b11 [^] b10; (* 2747 *)
  b11 <- (tmp [>>] 47) [|] (tmp [<<] (64 - 47)); (* 2748 *)
  b10 -= b11 [+] k2; (* 2749 *)
  b11 -= k3; (* 2750 *)
  tmp <- b9 [^] b8; (* 2751 *)
  b9 <- (tmp [>>] 12) [|] (tmp [<<] (64 - 12)); (* 2752 *)
  b8 -= b9 [+] k0; (* 2753 *)
  b9 -= k1; (* 2754 *)
  tmp <- b7 [^] b6; (* 2755 *)
  b7 <- (tmp [>>] 31) [|] (tmp [<<] (64 - 31)); (* 2756 *)
  b6 -= b7 [+] k15; (* 2757 *)
  b7 -= k16; (* 2758 *)
  tmp <- b5 [^] b4; (* 2759 *)
  b5 <- (tmp [>>] 37) [|] (tmp [<<] (64 - 37)); (* 2760 *)
  b4 -= b5 [+] k13; (* 2761 *)
  b5 -= k14; (* 2762 *)
  tmp <- b3 [^] b2; (* 2763 *)
  b3 <- (tmp [>>] 9) [|] (tmp [<<] (64 - 9)); (* 2764 *)
  b2 -= b3 [+] k11; (* 2765 *)
  b3 -= k12; (* 2766 *)
  tmp <- b1 [^] b0; (* 2767 *)
  b1 <- (tmp [>>] 41) [|] (tmp [<<] (64 - 41)); (* 2768 *)
  b0 -= b1 [+] k9; (* 2769 *)
  b1 -= k10; (* 2770 *)
  tmp <- b7 [^] b12; (* 2771 *)
  b7 <- (tmp [>>] 25) [|] (tmp [<<] (64 - 25)); (* 2772 *)
  b12 -= b7; (* 2773 *)
  tmp <- b3 [^] b10; (* 2774 *)
  b3 <- (tmp [>>] 16) [|] (tmp [<<] (64 - 16)); (* 2775 *)
  b10 -= b3; (* 2776 *)
  tmp <- b5 [^] b8; (* 2777 *)
  b5 <- (tmp [>>] 28) [|] (tmp [<<] (64 - 28)); (* 2778 *)
  b8 -= b5; (* 2779 *)
  tmp <- b1 [^] b14; (* 2780 *)
  b1 <- (tmp [>>] 47) [|] (tmp [<<] (64 - 47)); (* 2781 *)
  b14 -= b1; (* 2782 *)
  tmp <- b9 [^] b4; (* 2783 *)
  b9 <- (tmp [>>] 41) [|] (tmp [<<] (64 - 41)); (* 2784 *)
  b4 -= b9; (* 2785 *)
  tmp <- b13 [^] b6; (* 2786 *)
  b13 <- (tmp [>>] 48) [|] (tmp [<<] (64 - 48)); (* 2787 *)
  b6 -= b13; (* 2788 *)
  tmp <- b11 [^] b2; (* 2789 *)
  b11 <- (tmp [>>] 20) [|] (tmp [<<] (64 - 20)); (* 2790 *)
  b2 -= b11; (* 2791 *)
  tmp <- b15 [^] b0; (* 2792 *)
  b15 <- (tmp [>>] 5) [|] (tmp [<<] (64 - 5)); (* 2793 *)
  b0 -= b15; (* 2794 *)
  tmp <- b9 [^] b10; (* 2795 *)
  b9 <- (tmp [>>] 17) [|] (tmp [<<] (64 - 17)); (* 2796 *)
  b10 -= b9; (* 2797 *)
  tmp <- b11 [^] b8; (* 2798 *)
  b11 <- (tmp [>>] 59) [|] (tmp [<<] (64 - 59)); (* 2799 *)
  b8 -= b11; (* 2800 *)
  tmp <- b13 [^] b14; (* 2801 *)
  b13 <- (tmp [>>] 41) [|] (tmp [<<] (64 - 41)); (* 2802 *)
  b14 -= b13; (* 2803 *)
  tmp <- b15 [^] b12; (* 2804 *)
  b15 <- (tmp [>>] 34) [|] (tmp [<<] (64 - 34)); (* 2805 *)
  b12 -= b15; (* 2806 *)
  tmp <- b1 [^] b6; (* 2807 *)
  b1 <- (tmp [>>] 13) [|] (tmp [<<] (64 - 13)); (* 2808 *)
  b6 -= b1; (* 2809 *)
  tmp <- b3 [^] b4; (* 2810 *)
  b3 <- (tmp [>>] 51) [|] (tmp [<<] (64 - 51)); (* 2811 *)
  b4 -= b3; (* 2812 *)
  tmp <- b5 [^] b2; (* 2813 *)
  b5 <- (tmp [>>] 4) [|] (tmp [<<] (64 - 4)); (* 2814 *)
  b2 -= b5; (* 2815 *)
  tmp <- b7 [^] b0; (* 2816 *)
  b7 <- (tmp [>>] 33) [|] (tmp [<<] (64 - 33)); (* 2817 *)
  b0 -= b7; (* 2818 *)
  tmp <- b1 [^] b8; (* 2819 *)
  b1 <- (tmp [>>] 52) [|] (tmp [<<] (64 - 52)); (* 2820 *)
  b8 -= b1; (* 2821 *)
  tmp <- b5 [^] b14; (* 2822 *)
  b5 <- (tmp [>>] 23) [|] (tmp [<<] (64 - 23)); (* 2823 *)
  b14 -= b5; (* 2824 *)
  tmp <- b3 [^] b12; (* 2825 *)
  b3 <- (tmp [>>] 18) [|] (tmp [<<] (64 - 18)); (* 2826 *)
  b12 -= b3; (* 2827 *)
  tmp <- b7 [^] b10; (* 2828 *)
  b7 <- (tmp [>>] 49) [|] (tmp [<<] (64 - 49)); (* 2829 *)
  b10 -= b7; (* 2830 *)
  tmp <- b15 [^] b4; (* 2831 *)
  b15 <- (tmp [>>] 55) [|] (tmp [<<] (64 - 55)); (* 2832 *)
  b4 -= b15; (* 2833 *)
  tmp <- b11 [^] b6; (* 2834 *)
  b11 <- (tmp [>>] 10) [|] (tmp [<<] (64 - 10)); (* 2835 *)
  b6 -= b11; (* 2836 *)
  tmp <- b13 [^] b2; (* 2837 *)
  b13 <- (tmp [>>] 19) [|] (tmp [<<] (64 - 19)); (* 2838 *)
  b2 -= b13; (* 2839 *)
  tmp <- b9 [^] b0; (* 2840 *)
  b9 <- (tmp [>>] 38) [|] (tmp [<<] (64 - 38)); (* 2841 *)
  b0 -= b9; (* 2842 *)
  tmp <- b15 [^] b14; (* 2843 *)
  b15 <- (tmp [>>] 37) [|] (tmp [<<] (64 - 37)); (* 2844 *)
  b14 -= b15 [+] k5 [+] t0; (* 2845 *)
  b15 -= k6 [+] EC 8; (* 2846 *)
  tmp <- b13 [^] b12; (* 2847 *)
  b13 <- (tmp [>>] 22) [|] (tmp [<<] (64 - 22)); (* 2848 *)
  b12 -= b13 [+] k3; (* 2849 *)
  b13 -= k4 [+] t2; (* 2850 *)
  tmp <- b11 [^] b10; (* 2851 *)
  b11 <- (tmp [>>] 17) [|] (tmp [<<] (64 - 17)); (* 2852 *)
  b10 -= b11 [+] k1; (* 2853 *)
  b11 -= k2; (* 2854 *)
  tmp <- b9 [^] b8; (* 2855 *)
  b9 <- (tmp [>>] 8) [|] (tmp [<<] (64 - 8)); (* 2856 *)
  b8 -= b9 [+] k16; (* 2857 *)
  b9 -= k0; (* 2858 *)
  tmp <- b7 [^] b6; (* 2859 *)
  b7 <- (tmp [>>] 47) [|] (tmp [<<] (64 - 47)); (* 2860 *)
  b6 -= b7 [+] k14; (* 2861 *)
  b7 -= k15; (* 2862 *)
  tmp <- b5 [^] b4; (* 2863 *)
  b5 <- (tmp [>>] 8) [|] (tmp [<<] (64 - 8)); (* 2864 *)
  b4 -= b5 [+] k12; (* 2865 *)
  b5 -= k13; (* 2866 *)
  tmp <- b3 [^] b2; (* 2867 *)
  b3 <- (tmp [>>] 13) [|] (tmp [<<] (64 - 13)); (* 2868 *)
  b2 -= b3 [+] k10; (* 2869 *)
  b3 -= k11; (* 2870 *)
  tmp <- b1 [^] b0; (* 2871 *)
  b1 <- (tmp [>>] 24) [|] (tmp [<<] (64 - 24)); (* 2872 *)
  b0 -= b1 [+] k8; (* 2873 *)
  b1 -= k9; (* 2874 *)
  tmp <- b7 [^] b12; (* 2875 *)
  b7 <- (tmp [>>] 20) [|] (tmp [<<] (64 - 20)); (* 2876 *)
  b12 -= b7; (* 2877 *)
  tmp <- b3 [^] b10; (* 2878 *)
  b3 <- (tmp [>>] 37) [|] (tmp [<<] (64 - 37)); (* 2879 *)
  b10 -= b3; (* 2880 *)
  tmp <- b5 [^] b8; (* 2881 *)
  b5 <- (tmp [>>] 31) [|] (tmp [<<] (64 - 31)); (* 2882 *)
  b8 -= b5; (* 2883 *)
  tmp <- b1 [^] b14; (* 2884 *)
  b1 <- (tmp [>>] 23) [|] (tmp [<<] (64 - 23)); (* 2885 *)
  b14 -= b1; (* 2886 *)
  tmp <- b9 [^] b4; (* 2887 *)
  b9 <- (tmp [>>] 52) [|] (tmp [<<] (64 - 52)); (* 2888 *)
  b4 -= b9; (* 2889 *)
  tmp <- b13 [^] b6; (* 2890 *)
  b13 <- (tmp [>>] 35) [|] (tmp [<<] (64 - 35)); (* 2891 *)
  b6 -= b13; (* 2892 *)
  tmp <- b11 [^] b2; (* 2893 *)
  b11 <- (tmp [>>] 48) [|] (tmp [<<] (64 - 48)); (* 2894 *)
  b2 -= b11; (* 2895 *)
  tmp <- b15 [^] b0; (* 2896 *)
  b15 <- (tmp [>>] 9) [|] (tmp [<<] (64 - 9)); (* 2897 *)
  b0 -= b15; (* 2898 *)
  tmp <- b9 [^] b10; (* 2899 *)
  b9 <- (tmp [>>] 25) [|] (tmp [<<] (64 - 25)); (* 2900 *)
  b10 -= b9; (* 2901 *)
  tmp <- b11 [^] b8; (* 2902 *)
  b11 <- (tmp [>>] 44) [|] (tmp [<<] (64 - 44)); (* 2903 *)
  b8 -= b11; (* 2904 *)
  tmp <- b13 [^] b14; (* 2905 *)
  b13 <- (tmp [>>] 42) [|] (tmp [<<] (64 - 42)); (* 2906 *)
  b14 -= b13; (* 2907 *)
  tmp <- b15 [^] b12; (* 2908 *)
  b15 <- (tmp [>>] 19) [|] (tmp [<<] (64 - 19)); (* 2909 *)
  b12 -= b15; (* 2910 *)
  tmp <- b1 [^] b6; (* 2911 *)
  b1 <- (tmp [>>] 46) [|] (tmp [<<] (64 - 46)); (* 2912 *)
  b6 -= b1; (* 2913 *)
  tmp <- b3 [^] b4; (* 2914 *)
  b3 <- (tmp [>>] 47) [|] (tmp [<<] (64 - 47)); (* 2915 *)
  b4 -= b3; (* 2916 *)
  tmp <- b5 [^] b2; (* 2917 *)
  b5 <- (tmp [>>] 44) [|] (tmp [<<] (64 - 44)); (* 2918 *)
  b2 -= b5; (* 2919 *)
  tmp <- b7 [^] b0; (* 2920 *)
  b7 <- (tmp [>>] 31) [|] (tmp [<<] (64 - 31)); (* 2921 *)
  b0 -= b7; (* 2922 *)
  tmp <- b1 [^] b8; (* 2923 *)
  b1 <- (tmp [>>] 41) [|] (tmp [<<] (64 - 41)); (* 2924 *)
  b8 -= b1; (* 2925 *)
  tmp <- b5 [^] b14; (* 2926 *)
  b5 <- (tmp [>>] 42) [|] (tmp [<<] (64 - 42)); (* 2927 *)
  b14 -= b5; (* 2928 *)
  tmp <- b3 [^] b12; (* 2929 *)
  b3 <- (tmp [>>] 53) [|] (tmp [<<] (64 - 53)); (* 2930 *)
  b12 -= b3; (* 2931 *)
  tmp <- b7 [^] b10; (* 2932 *)
  b7 <- (tmp [>>] 4) [|] (tmp [<<] (64 - 4)); (* 2933 *)
  b10 -= b7; (* 2934 *)
  tmp <- b15 [^] b4; (* 2935 *)
  b15 <- (tmp [>>] 51) [|] (tmp [<<] (64 - 51)); (* 2936 *)
  b4 -= b15; (* 2937 *)
  tmp <- b11 [^] b6; (* 2938 *)
  b11 <- (tmp [>>] 56) [|] (tmp [<<] (64 - 56)); (* 2939 *)
  b6 -= b11; (* 2940 *)
  tmp <- b13 [^] b2; (* 2941 *)
  b13 <- (tmp [>>] 34) [|] (tmp [<<] (64 - 34)); (* 2942 *)
  b2 -= b13; (* 2943 *)
  tmp <- b9 [^] b0; (* 2944 *)
  b9 <- (tmp [>>] 16) [|] (tmp [<<] (64 - 16)); (* 2945 *)
  b0 -= b9; (* 2946 *)
  tmp <- b15 [^] b14; (* 2947 *)
  b15 <- (tmp [>>] 30) [|] (tmp [<<] (64 - 30)); (* 2948 *)
  b14 -= b15 [+] k4 [+] t2; (* 2949 *)
  b15 -= k5 [+] EC 7; (* 2950 *)
  tmp <- b13 [^] b12; (* 2951 *)
  b13 <- (tmp [>>] 44) [|] (tmp [<<] (64 - 44)); (* 2952 *)
  b12 -= b13 [+] k2; (* 2953 *)
  b13 -= k3 [+] t1; (* 2954 *)
  tmp <- b11 [^] b10; (* 2955 *)
  b11 <- (tmp [>>] 47) [|] (tmp [<<] (64 - 47)); (* 2956 *)
  b10 -= b11 [+] k0; (* 2957 *)
  b11 -= k1; (* 2958 *)
  tmp <- b9 [^] b8; (* 2959 *)
  b9 <- (tmp [>>] 12) [|] (tmp [<<] (64 - 12)); (* 2960 *)
  b8 -= b9 [+] k15; (* 2961 *)
  b9 -= k16; (* 2962 *)
  tmp <- b7 [^] b6; (* 2963 *)
  b7 <- (tmp [>>] 31) [|] (tmp [<<] (64 - 31)); (* 2964 *)
  b6 -= b7 [+] k13; (* 2965 *)
  b7 -= k14; (* 2966 *)
  tmp <- b5 [^] b4; (* 2967 *)
  b5 <- (tmp [>>] 37) [|] (tmp [<<] (64 - 37)); (* 2968 *)
  b4 -= b5 [+] k11; (* 2969 *)
  b5 -= k12; (* 2970 *)
  tmp <- b3 [^] b2; (* 2971 *)
  b3 <- (tmp [>>] 9) [|] (tmp [<<] (64 - 9)); (* 2972 *)
  b2 -= b3 [+] k9; (* 2973 *)
  b3 -= k10; (* 2974 *)
  tmp <- b1 [^] b0; (* 2975 *)
  b1 <- (tmp [>>] 41) [|] (tmp [<<] (64 - 41)); (* 2976 *)
  b0 -= b1 [+] k7; (* 2977 *)
  b1 -= k8; (* 2978 *)
  tmp <- b7 [^] b12; (* 2979 *)
  b7 <- (tmp [>>] 25) [|] (tmp [<<] (64 - 25)); (* 2980 *)
  b12 -= b7; (* 2981 *)
  tmp <- b3 [^] b10; (* 2982 *)
  b3 <- (tmp [>>] 16) [|] (tmp [<<] (64 - 16)); (* 2983 *)
  b10 -= b3; (* 2984 *)
  tmp <- b5 [^] b8; (* 2985 *)
  b5 <- (tmp [>>] 28) [|] (tmp [<<] (64 - 28)); (* 2986 *)
  b8 -= b5; (* 2987 *)
  tmp <- b1 [^] b14; (* 2988 *)
  b1 <- (tmp [>>] 47) [|] (tmp [<<] (64 - 47)); (* 2989 *)
  b14 -= b1; (* 2990 *)
  tmp <- b9 [^] b4; (* 2991 *)
  b9 <- (tmp [>>] 41) [|] (tmp [<<] (64 - 41)); (* 2992 *)
  b4 -= b9; (* 2993 *)
  tmp <- b13 [^] b6; (* 2994 *)
  b13 <- (tmp [>>] 48) [|] (tmp [<<] (64 - 48)); (* 2995 *)
  b6 -= b13; (* 2996 *)
  tmp <- b11 [^] b2; (* 2997 *)
  b11 <- (tmp [>>] 20) [|] (tmp [<<] (64 - 20)); (* 2998 *)
  b2 -= b11; (* 2999 *)
  tmp <- b15 [^] b0; (* 3000 *)
  b15 <- (tmp [>>] 5) [|] (tmp [<<] (64 - 5)); (* 3001 *)
  b0 -= b15; (* 3002 *)
  tmp <- b9 [^] b10; (* 3003 *)
  b9 <- (tmp [>>] 17) [|] (tmp [<<] (64 - 17)); (* 3004 *)
  b10 -= b9; (* 3005 *)
  tmp <- b11 [^] b8; (* 3006 *)
  b11 <- (tmp [>>] 59) [|] (tmp [<<] (64 - 59)); (* 3007 *)
  b8 -= b11; (* 3008 *)
  tmp <- b13 [^] b14; (* 3009 *)
  b13 <- (tmp [>>] 41) [|] (tmp [<<] (64 - 41)); (* 3010 *)
  b14 -= b13; (* 3011 *)
  tmp <- b15 [^] b12; (* 3012 *)
  b15 <- (tmp [>>] 34) [|] (tmp [<<] (64 - 34)); (* 3013 *)
  b12 -= b15; (* 3014 *)
  tmp <- b1 [^] b6; (* 3015 *)
  b1 <- (tmp [>>] 13) [|] (tmp [<<] (64 - 13)); (* 3016 *)
  b6 -= b1; (* 3017 *)
  tmp <- b3 [^] b4; (* 3018 *)
  b3 <- (tmp [>>] 51) [|] (tmp [<<] (64 - 51)); (* 3019 *)
  b4 -= b3; (* 3020 *)
  tmp <- b5 [^] b2; (* 3021 *)
  b5 <- (tmp [>>] 4) [|] (tmp [<<] (64 - 4)); (* 3022 *)
  b2 -= b5; (* 3023 *)
  tmp <- b7 [^] b0; (* 3024 *)
  b7 <- (tmp [>>] 33) [|] (tmp [<<] (64 - 33)); (* 3025 *)
  b0 -= b7; (* 3026 *)
  tmp <- b1 [^] b8; (* 3027 *)
  b1 <- (tmp [>>] 52) [|] (tmp [<<] (64 - 52)); (* 3028 *)
  b8 -= b1; (* 3029 *)
  tmp <- b5 [^] b14; (* 3030 *)
  b5 <- (tmp [>>] 23) [|] (tmp [<<] (64 - 23)); (* 3031 *)
  b14 -= b5; (* 3032 *)
  tmp <- b3 [^] b12; (* 3033 *)
  b3 <- (tmp [>>] 18) [|] (tmp [<<] (64 - 18)); (* 3034 *)
  b12 -= b3; (* 3035 *)
  tmp <- b7 [^] b10; (* 3036 *)
  b7 <- (tmp [>>] 49) [|] (tmp [<<] (64 - 49)); (* 3037 *)
  b10 -= b7; (* 3038 *)
  tmp <- b15 [^] b4; (* 3039 *)
  b15 <- (tmp [>>] 55) [|] (tmp [<<] (64 - 55)); (* 3040 *)
  b4 -= b15; (* 3041 *)
  tmp <- b11 [^] b6; (* 3042 *)
  b11 <- (tmp [>>] 10) [|] (tmp [<<] (64 - 10)); (* 3043 *)
  b6 -= b11; (* 3044 *)
  tmp <- b13 [^] b2; (* 3045 *)
  b13 <- (tmp [>>] 19) [|] (tmp [<<] (64 - 19)); (* 3046 *)
  b2 -= b13; (* 3047 *)
  tmp <- b9 [^] b0; (* 3048 *)
  b9 <- (tmp [>>] 38) [|] (tmp [<<] (64 - 38)); (* 3049 *)
  b0 -= b9; (* 3050 *)
  tmp <- b15 [^] b14; (* 3051 *)
  b15 <- (tmp [>>] 37) [|] (tmp [<<] (64 - 37)); (* 3052 *)
  b14 -= b15 [+] k3 [+] t1; (* 3053 *)
  b15 -= k4 [+] EC 6; (* 3054 *)
  tmp <- b13 [^] b12; (* 3055 *)
  b13 <- (tmp [>>] 22) [|] (tmp [<<] (64 - 22)); (* 3056 *)
  b12 -= b13 [+] k1; (* 3057 *)
  b13 -= k2 [+] t0; (* 3058 *)
  tmp <- b11 [^] b10; (* 3059 *)
  b11 <- (tmp [>>] 17) [|] (tmp [<<] (64 - 17)); (* 3060 *)
  b10 -= b11 [+] k16; (* 3061 *)
  b11 -= k0; (* 3062 *)
  tmp <- b9 [^] b8; (* 3063 *)
  b9 <- (tmp [>>] 8) [|] (tmp [<<] (64 - 8)); (* 3064 *)
  b8 -= b9 [+] k14; (* 3065 *)
  b9 -= k15; (* 3066 *)
  tmp <- b7 [^] b6; (* 3067 *)
  b7 <- (tmp [>>] 47) [|] (tmp [<<] (64 - 47)); (* 3068 *)
  b6 -= b7 [+] k12; (* 3069 *)
  b7 -= k13; (* 3070 *)
  tmp <- b5 [^] b4; (* 3071 *)
  b5 <- (tmp [>>] 8) [|] (tmp [<<] (64 - 8)); (* 3072 *)
  b4 -= b5 [+] k10; (* 3073 *)
  b5 -= k11; (* 3074 *)
  tmp <- b3 [^] b2; (* 3075 *)
  b3 <- (tmp [>>] 13) [|] (tmp [<<] (64 - 13)); (* 3076 *)
  b2 -= b3 [+] k8; (* 3077 *)
  b3 -= k9; (* 3078 *)
  tmp <- b1 [^] b0; (* 3079 *)
  b1 <- (tmp [>>] 24) [|] (tmp [<<] (64 - 24)); (* 3080 *)
  b0 -= b1 [+] k6; (* 3081 *)
  b1 -= k7; (* 3082 *)
  tmp <- b7 [^] b12; (* 3083 *)
  b7 <- (tmp [>>] 20) [|] (tmp [<<] (64 - 20)); (* 3084 *)
  b12 -= b7; (* 3085 *)
  tmp <- b3 [^] b10; (* 3086 *)
  b3 <- (tmp [>>] 37) [|] (tmp [<<] (64 - 37)); (* 3087 *)
  b10 -= b3; (* 3088 *)
  tmp <- b5 [^] b8; (* 3089 *)
  b5 <- (tmp [>>] 31) [|] (tmp [<<] (64 - 31)); (* 3090 *)
  b8 -= b5; (* 3091 *)
  tmp <- b1 [^] b14; (* 3092 *)
  b1 <- (tmp [>>] 23) [|] (tmp [<<] (64 - 23)); (* 3093 *)
  b14 -= b1; (* 3094 *)
  tmp <- b9 [^] b4; (* 3095 *)
  b9 <- (tmp [>>] 52) [|] (tmp [<<] (64 - 52)); (* 3096 *)
  b4 -= b9; (* 3097 *)
  tmp <- b13 [^] b6; (* 3098 *)
  b13 <- (tmp [>>] 35) [|] (tmp [<<] (64 - 35)); (* 3099 *)
  b6 -= b13; (* 3100 *)
  tmp <- b11 [^] b2; (* 3101 *)
  b11 <- (tmp [>>] 48) [|] (tmp [<<] (64 - 48)); (* 3102 *)
  b2 -= b11; (* 3103 *)
  tmp <- b15 [^] b0; (* 3104 *)
  b15 <- (tmp [>>] 9) [|] (tmp [<<] (64 - 9)); (* 3105 *)
  b0 -= b15; (* 3106 *)
  tmp <- b9 [^] b10; (* 3107 *)
  b9 <- (tmp [>>] 25) [|] (tmp [<<] (64 - 25)); (* 3108 *)
  b10 -= b9; (* 3109 *)
  tmp <- b11 [^] b8; (* 3110 *)
  b11 <- (tmp [>>] 44) [|] (tmp [<<] (64 - 44)); (* 3111 *)
  b8 -= b11; (* 3112 *)
  tmp <- b13 [^] b14; (* 3113 *)
  b13 <- (tmp [>>] 42) [|] (tmp [<<] (64 - 42)); (* 3114 *)
  b14 -= b13; (* 3115 *)
  tmp <- b15 [^] b12; (* 3116 *)
  b15 <- (tmp [>>] 19) [|] (tmp [<<] (64 - 19)); (* 3117 *)
  b12 -= b15; (* 3118 *)
  tmp <- b1 [^] b6; (* 3119 *)
  b1 <- (tmp [>>] 46) [|] (tmp [<<] (64 - 46)); (* 3120 *)
  b6 -= b1; (* 3121 *)
  tmp <- b3 [^] b4; (* 3122 *)
  b3 <- (tmp [>>] 47) [|] (tmp [<<] (64 - 47)); (* 3123 *)
  b4 -= b3; (* 3124 *)
  tmp <- b5 [^] b2; (* 3125 *)
  b5 <- (tmp [>>] 44) [|] (tmp [<<] (64 - 44)); (* 3126 *)
  b2 -= b5; (* 3127 *)
  tmp <- b7 [^] b0; (* 3128 *)
  b7 <- (tmp [>>] 31) [|] (tmp [<<] (64 - 31)); (* 3129 *)
  b0 -= b7; (* 3130 *)
  tmp <- b1 [^] b8; (* 3131 *)
  b1 <- (tmp [>>] 41) [|] (tmp [<<] (64 - 41)); (* 3132 *)
  b8 -= b1; (* 3133 *)
  tmp <- b5 [^] b14; (* 3134 *)
  b5 <- (tmp [>>] 42) [|] (tmp [<<] (64 - 42)); (* 3135 *)
  b14 -= b5; (* 3136 *)
  tmp <- b3 [^] b12; (* 3137 *)
  b3 <- (tmp [>>] 53) [|] (tmp [<<] (64 - 53)); (* 3138 *)
  b12 -= b3; (* 3139 *)
  tmp <- b7 [^] b10; (* 3140 *)
  b7 <- (tmp [>>] 4) [|] (tmp [<<] (64 - 4)); (* 3141 *)
  b10 -= b7; (* 3142 *)
  tmp <- b15 [^] b4; (* 3143 *)
  b15 <- (tmp [>>] 51) [|] (tmp [<<] (64 - 51)); (* 3144 *)
  b4 -= b15; (* 3145 *)
  tmp <- b11 [^] b6; (* 3146 *)
  b11 <- (tmp [>>] 56) [|] (tmp [<<] (64 - 56)); (* 3147 *)
  b6 -= b11; (* 3148 *)
  tmp <- b13 [^] b2; (* 3149 *)
  b13 <- (tmp [>>] 34) [|] (tmp [<<] (64 - 34)); (* 3150 *)
  b2 -= b13; (* 3151 *)
  tmp <- b9 [^] b0; (* 3152 *)
  b9 <- (tmp [>>] 16) [|] (tmp [<<] (64 - 16)); (* 3153 *)
  b0 -= b9; (* 3154 *)
  tmp <- b15 [^] b14; (* 3155 *)
  b15 <- (tmp [>>] 30) [|] (tmp [<<] (64 - 30)); (* 3156 *)
  b14 -= b15 [+] k2 [+] t0; (* 3157 *)
  b15 -= k3 [+] EC 5; (* 3158 *)
  tmp <- b13 [^] b12; (* 3159 *)
  b13 <- (tmp [>>] 44) [|] (tmp [<<] (64 - 44)); (* 3160 *)
  b12 -= b13 [+] k0; (* 3161 *)
  b13 -= k1 [+] t2; (* 3162 *)
  tmp <- b11 [^] b10; (* 3163 *)
  b11 <- (tmp [>>] 47) [|] (tmp [<<] (64 - 47)); (* 3164 *)
  b10 -= b11 [+] k15; (* 3165 *)
  b11 -= k16; (* 3166 *)
  tmp <- b9 [^] b8; (* 3167 *)
  b9 <- (tmp [>>] 12) [|] (tmp [<<] (64 - 12)); (* 3168 *)
  b8 -= b9 [+] k13; (* 3169 *)
  b9 -= k14; (* 3170 *)
  tmp <- b7 [^] b6; (* 3171 *)
  b7 <- (tmp [>>] 31) [|] (tmp [<<] (64 - 31)); (* 3172 *)
  b6 -= b7 [+] k11; (* 3173 *)
  b7 -= k12; (* 3174 *)
  tmp <- b5 [^] b4; (* 3175 *)
  b5 <- (tmp [>>] 37) [|] (tmp [<<] (64 - 37)); (* 3176 *)
  b4 -= b5 [+] k9; (* 3177 *)
  b5 -= k10; (* 3178 *)
  tmp <- b3 [^] b2; (* 3179 *)
  b3 <- (tmp [>>] 9) [|] (tmp [<<] (64 - 9)); (* 3180 *)
  b2 -= b3 [+] k7; (* 3181 *)
  b3 -= k8; (* 3182 *)
  tmp <- b1 [^] b0; (* 3183 *)
  b1 <- (tmp [>>] 41) [|] (tmp [<<] (64 - 41)); (* 3184 *)
  b0 -= b1 [+] k5; (* 3185 *)
  b1 -= k6; (* 3186 *)
  tmp <- b7 [^] b12; (* 3187 *)
  b7 <- (tmp [>>] 25) [|] (tmp [<<] (64 - 25)); (* 3188 *)
  b12 -= b7; (* 3189 *)
  tmp <- b3 [^] b10; (* 3190 *)
  b3 <- (tmp [>>] 16) [|] (tmp [<<] (64 - 16)); (* 3191 *)
  b10 -= b3; (* 3192 *)
  tmp <- b5 [^] b8; (* 3193 *)
  b5 <- (tmp [>>] 28) [|] (tmp [<<] (64 - 28)); (* 3194 *)
  b8 -= b5; (* 3195 *)
  tmp <- b1 [^] b14; (* 3196 *)
  b1 <- (tmp [>>] 47) [|] (tmp [<<] (64 - 47)); (* 3197 *)
  b14 -= b1; (* 3198 *)
  tmp <- b9 [^] b4; (* 3199 *)
  b9 <- (tmp [>>] 41) [|] (tmp [<<] (64 - 41)); (* 3200 *)
  b4 -= b9; (* 3201 *)
  tmp <- b13 [^] b6; (* 3202 *)
  b13 <- (tmp [>>] 48) [|] (tmp [<<] (64 - 48)); (* 3203 *)
  b6 -= b13; (* 3204 *)
  tmp <- b11 [^] b2; (* 3205 *)
  b11 <- (tmp [>>] 20) [|] (tmp [<<] (64 - 20)); (* 3206 *)
  b2 -= b11; (* 3207 *)
  tmp <- b15 [^] b0; (* 3208 *)
  b15 <- (tmp [>>] 5) [|] (tmp [<<] (64 - 5)); (* 3209 *)
  b0 -= b15; (* 3210 *)
  tmp <- b9 [^] b10; (* 3211 *)
  b9 <- (tmp [>>] 17) [|] (tmp [<<] (64 - 17)); (* 3212 *)
  b10 -= b9; (* 3213 *)
  tmp <- b11 [^] b8; (* 3214 *)
  b11 <- (tmp [>>] 59) [|] (tmp [<<] (64 - 59)); (* 3215 *)
  b8 -= b11; (* 3216 *)
  tmp <- b13 [^] b14; (* 3217 *)
  b13 <- (tmp [>>] 41) [|] (tmp [<<] (64 - 41)); (* 3218 *)
  b14 -= b13; (* 3219 *)
  tmp <- b15 [^] b12; (* 3220 *)
  b15 <- (tmp [>>] 34) [|] (tmp [<<] (64 - 34)); (* 3221 *)
  b12 -= b15; (* 3222 *)
  tmp <- b1 [^] b6; (* 3223 *)
  b1 <- (tmp [>>] 13) [|] (tmp [<<] (64 - 13)); (* 3224 *)
  b6 -= b1; (* 3225 *)
  tmp <- b3 [^] b4; (* 3226 *)
  b3 <- (tmp [>>] 51) [|] (tmp [<<] (64 - 51)); (* 3227 *)
  b4 -= b3; (* 3228 *)
  tmp <- b5 [^] b2; (* 3229 *)
  b5 <- (tmp [>>] 4) [|] (tmp [<<] (64 - 4)); (* 3230 *)
  b2 -= b5; (* 3231 *)
  tmp <- b7 [^] b0; (* 3232 *)
  b7 <- (tmp [>>] 33) [|] (tmp [<<] (64 - 33)); (* 3233 *)
  b0 -= b7; (* 3234 *)
  tmp <- b1 [^] b8; (* 3235 *)
  b1 <- (tmp [>>] 52) [|] (tmp [<<] (64 - 52)); (* 3236 *)
  b8 -= b1; (* 3237 *)
  tmp <- b5 [^] b14; (* 3238 *)
  b5 <- (tmp [>>] 23) [|] (tmp [<<] (64 - 23)); (* 3239 *)
  b14 -= b5; (* 3240 *)
  tmp <- b3 [^] b12; (* 3241 *)
  b3 <- (tmp [>>] 18) [|] (tmp [<<] (64 - 18)); (* 3242 *)
  b12 -= b3; (* 3243 *)
  tmp <- b7 [^] b10; (* 3244 *)
  b7 <- (tmp [>>] 49) [|] (tmp [<<] (64 - 49)); (* 3245 *)
  b10 -= b7; (* 3246 *)
  tmp <- b15 [^] b4; (* 3247 *)
  b15 <- (tmp [>>] 55) [|] (tmp [<<] (64 - 55)); (* 3248 *)
  b4 -= b15; (* 3249 *)
  tmp <- b11 [^] b6; (* 3250 *)
  b11 <- (tmp [>>] 10) [|] (tmp [<<] (64 - 10)); (* 3251 *)
  b6 -= b11; (* 3252 *)
  tmp <- b13 [^] b2; (* 3253 *)
  b13 <- (tmp [>>] 19) [|] (tmp [<<] (64 - 19)); (* 3254 *)
  b2 -= b13; (* 3255 *)
  tmp <- b9 [^] b0; (* 3256 *)
  b9 <- (tmp [>>] 38) [|] (tmp [<<] (64 - 38)); (* 3257 *)
  b0 -= b9; (* 3258 *)
  tmp <- b15 [^] b14; (* 3259 *)
  b15 <- (tmp [>>] 37) [|] (tmp [<<] (64 - 37)); (* 3260 *)
  b14 -= b15 [+] k1 [+] t2; (* 3261 *)
  b15 -= k2 [+] EC 4; (* 3262 *)
  tmp <- b13 [^] b12; (* 3263 *)
  b13 <- (tmp [>>] 22) [|] (tmp [<<] (64 - 22)); (* 3264 *)
  b12 -= b13 [+] k16; (* 3265 *)
  b13 -= k0 [+] t1; (* 3266 *)
  tmp <- b11 [^] b10; (* 3267 *)
  b11 <- (tmp [>>] 17) [|] (tmp [<<] (64 - 17)); (* 3268 *)
  b10 -= b11 [+] k14; (* 3269 *)
  b11 -= k15; (* 3270 *)
  tmp <- b9 [^] b8; (* 3271 *)
  b9 <- (tmp [>>] 8) [|] (tmp [<<] (64 - 8)); (* 3272 *)
  b8 -= b9 [+] k12; (* 3273 *)
  b9 -= k13; (* 3274 *)
  tmp <- b7 [^] b6; (* 3275 *)
  b7 <- (tmp [>>] 47) [|] (tmp [<<] (64 - 47)); (* 3276 *)
  b6 -= b7 [+] k10; (* 3277 *)
  b7 -= k11; (* 3278 *)
  tmp <- b5 [^] b4; (* 3279 *)
  b5 <- (tmp [>>] 8) [|] (tmp [<<] (64 - 8)); (* 3280 *)
  b4 -= b5 [+] k8; (* 3281 *)
  b5 -= k9; (* 3282 *)
  tmp <- b3 [^] b2; (* 3283 *)
  b3 <- (tmp [>>] 13) [|] (tmp [<<] (64 - 13)); (* 3284 *)
  b2 -= b3 [+] k6; (* 3285 *)
  b3 -= k7; (* 3286 *)
  tmp <- b1 [^] b0; (* 3287 *)
  b1 <- (tmp [>>] 24) [|] (tmp [<<] (64 - 24)); (* 3288 *)
  b0 -= b1 [+] k4; (* 3289 *)
  b1 -= k5; (* 3290 *)
  tmp <- b7 [^] b12; (* 3291 *)
  b7 <- (tmp [>>] 20) [|] (tmp [<<] (64 - 20)); (* 3292 *)
  b12 -= b7; (* 3293 *)
  tmp <- b3 [^] b10; (* 3294 *)
  b3 <- (tmp [>>] 37) [|] (tmp [<<] (64 - 37)); (* 3295 *)
  b10 -= b3; (* 3296 *)
  tmp <- b5 [^] b8; (* 3297 *)
  b5 <- (tmp [>>] 31) [|] (tmp [<<] (64 - 31)); (* 3298 *)
  b8 -= b5; (* 3299 *)
  tmp <- b1 [^] b14; (* 3300 *)
  b1 <- (tmp [>>] 23) [|] (tmp [<<] (64 - 23)); (* 3301 *)
  b14 -= b1; (* 3302 *)
  tmp <- b9 [^] b4; (* 3303 *)
  b9 <- (tmp [>>] 52) [|] (tmp [<<] (64 - 52)); (* 3304 *)
  b4 -= b9; (* 3305 *)
  tmp <- b13 [^] b6; (* 3306 *)
  b13 <- (tmp [>>] 35) [|] (tmp [<<] (64 - 35)); (* 3307 *)
  b6 -= b13; (* 3308 *)
  tmp <- b11 [^] b2; (* 3309 *)
  b11 <- (tmp [>>] 48) [|] (tmp [<<] (64 - 48)); (* 3310 *)
  b2 -= b11; (* 3311 *)
  tmp <- b15 [^] b0; (* 3312 *)
  b15 <- (tmp [>>] 9) [|] (tmp [<<] (64 - 9)); (* 3313 *)
  b0 -= b15; (* 3314 *)
  tmp <- b9 [^] b10; (* 3315 *)
  b9 <- (tmp [>>] 25) [|] (tmp [<<] (64 - 25)); (* 3316 *)
  b10 -= b9; (* 3317 *)
  tmp <- b11 [^] b8; (* 3318 *)
  b11 <- (tmp [>>] 44) [|] (tmp [<<] (64 - 44)); (* 3319 *)
  b8 -= b11; (* 3320 *)
  tmp <- b13 [^] b14; (* 3321 *)
  b13 <- (tmp [>>] 42) [|] (tmp [<<] (64 - 42)); (* 3322 *)
  b14 -= b13; (* 3323 *)
  tmp <- b15 [^] b12; (* 3324 *)
  b15 <- (tmp [>>] 19) [|] (tmp [<<] (64 - 19)); (* 3325 *)
  b12 -= b15; (* 3326 *)
  tmp <- b1 [^] b6; (* 3327 *)
  b1 <- (tmp [>>] 46) [|] (tmp [<<] (64 - 46)); (* 3328 *)
  b6 -= b1; (* 3329 *)
  tmp <- b3 [^] b4; (* 3330 *)
  b3 <- (tmp [>>] 47) [|] (tmp [<<] (64 - 47)); (* 3331 *)
  b4 -= b3; (* 3332 *)
  tmp <- b5 [^] b2; (* 3333 *)
  b5 <- (tmp [>>] 44) [|] (tmp [<<] (64 - 44)); (* 3334 *)
  b2 -= b5; (* 3335 *)
  tmp <- b7 [^] b0; (* 3336 *)
  b7 <- (tmp [>>] 31) [|] (tmp [<<] (64 - 31)); (* 3337 *)
  b0 -= b7; (* 3338 *)
  tmp <- b1 [^] b8; (* 3339 *)
  b1 <- (tmp [>>] 41) [|] (tmp [<<] (64 - 41)); (* 3340 *)
  b8 -= b1; (* 3341 *)
  tmp <- b5 [^] b14; (* 3342 *)
  b5 <- (tmp [>>] 42) [|] (tmp [<<] (64 - 42)); (* 3343 *)
  b14 -= b5; (* 3344 *)
  tmp <- b3 [^] b12; (* 3345 *)
  b3 <- (tmp [>>] 53) [|] (tmp [<<] (64 - 53)); (* 3346 *)
  b12 -= b3; (* 3347 *)
  tmp <- b7 [^] b10; (* 3348 *)
  b7 <- (tmp [>>] 4) [|] (tmp [<<] (64 - 4)); (* 3349 *)
  b10 -= b7; (* 3350 *)
  tmp <- b15 [^] b4; (* 3351 *)
  b15 <- (tmp [>>] 51) [|] (tmp [<<] (64 - 51)); (* 3352 *)
  b4 -= b15; (* 3353 *)
  tmp <- b11 [^] b6; (* 3354 *)
  b11 <- (tmp [>>] 56) [|] (tmp [<<] (64 - 56)); (* 3355 *)
  b6 -= b11; (* 3356 *)
  tmp <- b13 [^] b2; (* 3357 *)
  b13 <- (tmp [>>] 34) [|] (tmp [<<] (64 - 34)); (* 3358 *)
  b2 -= b13; (* 3359 *)
  tmp <- b9 [^] b0; (* 3360 *)
  b9 <- (tmp [>>] 16) [|] (tmp [<<] (64 - 16)); (* 3361 *)
  b0 -= b9; (* 3362 *)
  tmp <- b15 [^] b14; (* 3363 *)
  b15 <- (tmp [>>] 30) [|] (tmp [<<] (64 - 30)); (* 3364 *)
  b14 -= b15 [+] k0 [+] t1; (* 3365 *)
  b15 -= k1 [+] EC 3; (* 3366 *)
  tmp <- b13 [^] b12; (* 3367 *)
  b13 <- (tmp [>>] 44) [|] (tmp [<<] (64 - 44)); (* 3368 *)
  b12 -= b13 [+] k15; (* 3369 *)
  b13 -= k16 [+] t0; (* 3370 *)
  tmp <- b11 [^] b10; (* 3371 *)
  b11 <- (tmp [>>] 47) [|] (tmp [<<] (64 - 47)); (* 3372 *)
  b10 -= b11 [+] k13; (* 3373 *)
  b11 -= k14; (* 3374 *)
  tmp <- b9 [^] b8; (* 3375 *)
  b9 <- (tmp [>>] 12) [|] (tmp [<<] (64 - 12)); (* 3376 *)
  b8 -= b9 [+] k11; (* 3377 *)
  b9 -= k12; (* 3378 *)
  tmp <- b7 [^] b6; (* 3379 *)
  b7 <- (tmp [>>] 31) [|] (tmp [<<] (64 - 31)); (* 3380 *)
  b6 -= b7 [+] k9; (* 3381 *)
  b7 -= k10; (* 3382 *)
  tmp <- b5 [^] b4; (* 3383 *)
  b5 <- (tmp [>>] 37) [|] (tmp [<<] (64 - 37)); (* 3384 *)
  b4 -= b5 [+] k7; (* 3385 *)
  b5 -= k8; (* 3386 *)
  tmp <- b3 [^] b2; (* 3387 *)
  b3 <- (tmp [>>] 9) [|] (tmp [<<] (64 - 9)); (* 3388 *)
  b2 -= b3 [+] k5; (* 3389 *)
  b3 -= k6; (* 3390 *)
  tmp <- b1 [^] b0; (* 3391 *)
  b1 <- (tmp [>>] 41) [|] (tmp [<<] (64 - 41)); (* 3392 *)
  b0 -= b1 [+] k3; (* 3393 *)
  b1 -= k4; (* 3394 *)
  tmp <- b7 [^] b12; (* 3395 *)
  b7 <- (tmp [>>] 25) [|] (tmp [<<] (64 - 25)); (* 3396 *)
  b12 -= b7; (* 3397 *)
  tmp <- b3 [^] b10; (* 3398 *)
  b3 <- (tmp [>>] 16) [|] (tmp [<<] (64 - 16)); (* 3399 *)
  b10 -= b3; (* 3400 *)
  tmp <- b5 [^] b8; (* 3401 *)
  b5 <- (tmp [>>] 28) [|] (tmp [<<] (64 - 28)); (* 3402 *)
  b8 -= b5; (* 3403 *)
  tmp <- b1 [^] b14; (* 3404 *)
  b1 <- (tmp [>>] 47) [|] (tmp [<<] (64 - 47)); (* 3405 *)
  b14 -= b1; (* 3406 *)
  tmp <- b9 [^] b4; (* 3407 *)
  b9 <- (tmp [>>] 41) [|] (tmp [<<] (64 - 41)); (* 3408 *)
  b4 -= b9; (* 3409 *)
  tmp <- b13 [^] b6; (* 3410 *)
  b13 <- (tmp [>>] 48) [|] (tmp [<<] (64 - 48)); (* 3411 *)
  b6 -= b13; (* 3412 *)
  tmp <- b11 [^] b2; (* 3413 *)
  b11 <- (tmp [>>] 20) [|] (tmp [<<] (64 - 20)); (* 3414 *)
  b2 -= b11; (* 3415 *)
  tmp <- b15 [^] b0; (* 3416 *)
  b15 <- (tmp [>>] 5) [|] (tmp [<<] (64 - 5)); (* 3417 *)
  b0 -= b15; (* 3418 *)
  tmp <- b9 [^] b10; (* 3419 *)
  b9 <- (tmp [>>] 17) [|] (tmp [<<] (64 - 17)); (* 3420 *)
  b10 -= b9; (* 3421 *)
  tmp <- b11 [^] b8; (* 3422 *)
  b11 <- (tmp [>>] 59) [|] (tmp [<<] (64 - 59)); (* 3423 *)
  b8 -= b11; (* 3424 *)
  tmp <- b13 [^] b14; (* 3425 *)
  b13 <- (tmp [>>] 41) [|] (tmp [<<] (64 - 41)); (* 3426 *)
  b14 -= b13; (* 3427 *)
  tmp <- b15 [^] b12; (* 3428 *)
  b15 <- (tmp [>>] 34) [|] (tmp [<<] (64 - 34)); (* 3429 *)
  b12 -= b15; (* 3430 *)
  tmp <- b1 [^] b6; (* 3431 *)
  b1 <- (tmp [>>] 13) [|] (tmp [<<] (64 - 13)); (* 3432 *)
  b6 -= b1; (* 3433 *)
  tmp <- b3 [^] b4; (* 3434 *)
  b3 <- (tmp [>>] 51) [|] (tmp [<<] (64 - 51)); (* 3435 *)
  b4 -= b3; (* 3436 *)
  tmp <- b5 [^] b2; (* 3437 *)
  b5 <- (tmp [>>] 4) [|] (tmp [<<] (64 - 4)); (* 3438 *)
  b2 -= b5; (* 3439 *)
  tmp <- b7 [^] b0; (* 3440 *)
  b7 <- (tmp [>>] 33) [|] (tmp [<<] (64 - 33)); (* 3441 *)
  b0 -= b7; (* 3442 *)
  tmp <- b1 [^] b8; (* 3443 *)
  b1 <- (tmp [>>] 52) [|] (tmp [<<] (64 - 52)); (* 3444 *)
  b8 -= b1; (* 3445 *)
  tmp <- b5 [^] b14; (* 3446 *)
  b5 <- (tmp [>>] 23) [|] (tmp [<<] (64 - 23)); (* 3447 *)
  b14 -= b5; (* 3448 *)
  tmp <- b3 [^] b12; (* 3449 *)
  b3 <- (tmp [>>] 18) [|] (tmp [<<] (64 - 18)); (* 3450 *)
  b12 -= b3; (* 3451 *)
  tmp <- b7 [^] b10; (* 3452 *)
  b7 <- (tmp [>>] 49) [|] (tmp [<<] (64 - 49)); (* 3453 *)
  b10 -= b7; (* 3454 *)
  tmp <- b15 [^] b4; (* 3455 *)
  b15 <- (tmp [>>] 55) [|] (tmp [<<] (64 - 55)); (* 3456 *)
  b4 -= b15; (* 3457 *)
  tmp <- b11 [^] b6; (* 3458 *)
  b11 <- (tmp [>>] 10) [|] (tmp [<<] (64 - 10)); (* 3459 *)
  b6 -= b11; (* 3460 *)
  tmp <- b13 [^] b2; (* 3461 *)
  b13 <- (tmp [>>] 19) [|] (tmp [<<] (64 - 19)); (* 3462 *)
  b2 -= b13; (* 3463 *)
  tmp <- b9 [^] b0; (* 3464 *)
  b9 <- (tmp [>>] 38) [|] (tmp [<<] (64 - 38)); (* 3465 *)
  b0 -= b9; (* 3466 *)
  tmp <- b15 [^] b14; (* 3467 *)
  b15 <- (tmp [>>] 37) [|] (tmp [<<] (64 - 37)); (* 3468 *)
  b14 -= b15 [+] k16 [+] t0; (* 3469 *)
  b15 -= k0 [+] EC 2; (* 3470 *)
  tmp <- b13 [^] b12; (* 3471 *)
  b13 <- (tmp [>>] 22) [|] (tmp [<<] (64 - 22)); (* 3472 *)
  b12 -= b13 [+] k14; (* 3473 *)
  b13 -= k15 [+] t2; (* 3474 *)
  tmp <- b11 [^] b10; (* 3475 *)
  b11 <- (tmp [>>] 17) [|] (tmp [<<] (64 - 17)); (* 3476 *)
  b10 -= b11 [+] k12; (* 3477 *)
  b11 -= k13; (* 3478 *)
  tmp <- b9 [^] b8; (* 3479 *)
  b9 <- (tmp [>>] 8) [|] (tmp [<<] (64 - 8)); (* 3480 *)
  b8 -= b9 [+] k10; (* 3481 *)
  b9 -= k11; (* 3482 *)
  tmp <- b7 [^] b6; (* 3483 *)
  b7 <- (tmp [>>] 47) [|] (tmp [<<] (64 - 47)); (* 3484 *)
  b6 -= b7 [+] k8; (* 3485 *)
  b7 -= k9; (* 3486 *)
  tmp <- b5 [^] b4; (* 3487 *)
  b5 <- (tmp [>>] 8) [|] (tmp [<<] (64 - 8)); (* 3488 *)
  b4 -= b5 [+] k6; (* 3489 *)
  b5 -= k7; (* 3490 *)
  tmp <- b3 [^] b2; (* 3491 *)
  b3 <- (tmp [>>] 13) [|] (tmp [<<] (64 - 13)); (* 3492 *)
  b2 -= b3 [+] k4; (* 3493 *)
  b3 -= k5; (* 3494 *)
  tmp <- b1 [^] b0; (* 3495 *)
  b1 <- (tmp [>>] 24) [|] (tmp [<<] (64 - 24)); (* 3496 *)
  b0 -= b1 [+] k2; (* 3497 *)
  b1 -= k3; (* 3498 *)
  tmp <- b7 [^] b12; (* 3499 *)
  b7 <- (tmp [>>] 20) [|] (tmp [<<] (64 - 20)); (* 3500 *)
  b12 -= b7; (* 3501 *)
  tmp <- b3 [^] b10; (* 3502 *)
  b3 <- (tmp [>>] 37) [|] (tmp [<<] (64 - 37)); (* 3503 *)
  b10 -= b3; (* 3504 *)
  tmp <- b5 [^] b8; (* 3505 *)
  b5 <- (tmp [>>] 31) [|] (tmp [<<] (64 - 31)); (* 3506 *)
  b8 -= b5; (* 3507 *)
  tmp <- b1 [^] b14; (* 3508 *)
  b1 <- (tmp [>>] 23) [|] (tmp [<<] (64 - 23)); (* 3509 *)
  b14 -= b1; (* 3510 *)
  tmp <- b9 [^] b4; (* 3511 *)
  b9 <- (tmp [>>] 52) [|] (tmp [<<] (64 - 52)); (* 3512 *)
  b4 -= b9; (* 3513 *)
  tmp <- b13 [^] b6; (* 3514 *)
  b13 <- (tmp [>>] 35) [|] (tmp [<<] (64 - 35)); (* 3515 *)
  b6 -= b13; (* 3516 *)
  tmp <- b11 [^] b2; (* 3517 *)
  b11 <- (tmp [>>] 48) [|] (tmp [<<] (64 - 48)); (* 3518 *)
  b2 -= b11; (* 3519 *)
  tmp <- b15 [^] b0; (* 3520 *)
  b15 <- (tmp [>>] 9) [|] (tmp [<<] (64 - 9)); (* 3521 *)
  b0 -= b15; (* 3522 *)
  tmp <- b9 [^] b10; (* 3523 *)
  b9 <- (tmp [>>] 25) [|] (tmp [<<] (64 - 25)); (* 3524 *)
  b10 -= b9; (* 3525 *)
  tmp <- b11 [^] b8; (* 3526 *)
  b11 <- (tmp [>>] 44) [|] (tmp [<<] (64 - 44)); (* 3527 *)
  b8 -= b11; (* 3528 *)
  tmp <- b13 [^] b14; (* 3529 *)
  b13 <- (tmp [>>] 42) [|] (tmp [<<] (64 - 42)); (* 3530 *)
  b14 -= b13; (* 3531 *)
  tmp <- b15 [^] b12; (* 3532 *)
  b15 <- (tmp [>>] 19) [|] (tmp [<<] (64 - 19)); (* 3533 *)
  b12 -= b15; (* 3534 *)
  tmp <- b1 [^] b6; (* 3535 *)
  b1 <- (tmp [>>] 46) [|] (tmp [<<] (64 - 46)); (* 3536 *)
  b6 -= b1; (* 3537 *)
  tmp <- b3 [^] b4; (* 3538 *)
  b3 <- (tmp [>>] 47) [|] (tmp [<<] (64 - 47)); (* 3539 *)
  b4 -= b3; (* 3540 *)
  tmp <- b5 [^] b2; (* 3541 *)
  b5 <- (tmp [>>] 44) [|] (tmp [<<] (64 - 44)); (* 3542 *)
  b2 -= b5; (* 3543 *)
  tmp <- b7 [^] b0; (* 3544 *)
  b7 <- (tmp [>>] 31) [|] (tmp [<<] (64 - 31)); (* 3545 *)
  b0 -= b7; (* 3546 *)
  tmp <- b1 [^] b8; (* 3547 *)
  b1 <- (tmp [>>] 41) [|] (tmp [<<] (64 - 41)); (* 3548 *)
  b8 -= b1; (* 3549 *)
  tmp <- b5 [^] b14; (* 3550 *)
  b5 <- (tmp [>>] 42) [|] (tmp [<<] (64 - 42)); (* 3551 *)
  b14 -= b5; (* 3552 *)
  tmp <- b3 [^] b12; (* 3553 *)
  b3 <- (tmp [>>] 53) [|] (tmp [<<] (64 - 53)); (* 3554 *)
  b12 -= b3; (* 3555 *)
  tmp <- b7 [^] b10; (* 3556 *)
  b7 <- (tmp [>>] 4) [|] (tmp [<<] (64 - 4)); (* 3557 *)
  b10 -= b7; (* 3558 *)
  tmp <- b15 [^] b4; (* 3559 *)
  b15 <- (tmp [>>] 51) [|] (tmp [<<] (64 - 51)); (* 3560 *)
  b4 -= b15; (* 3561 *)
  tmp <- b11 [^] b6; (* 3562 *)
  b11 <- (tmp [>>] 56) [|] (tmp [<<] (64 - 56)); (* 3563 *)
  b6 -= b11; (* 3564 *)
  tmp <- b13 [^] b2; (* 3565 *)
  b13 <- (tmp [>>] 34) [|] (tmp [<<] (64 - 34)); (* 3566 *)
  b2 -= b13; (* 3567 *)
  tmp <- b9 [^] b0; (* 3568 *)
  b9 <- (tmp [>>] 16) [|] (tmp [<<] (64 - 16)); (* 3569 *)
  b0 -= b9; (* 3570 *)
  tmp <- b15 [^] b14; (* 3571 *)
  b15 <- (tmp [>>] 30) [|] (tmp [<<] (64 - 30)); (* 3572 *)
  b14 -= b15 [+] k15 [+] t2; (* 3573 *)
  b15 -= k16 [+] EC 1; (* 3574 *)
  tmp <- b13 [^] b12; (* 3575 *)
  b13 <- (tmp [>>] 44) [|] (tmp [<<] (64 - 44)); (* 3576 *)
  b12 -= b13 [+] k13; (* 3577 *)
  b13 -= k14 [+] t1; (* 3578 *)
  tmp <- b11 [^] b10; (* 3579 *)
  b11 <- (tmp [>>] 47) [|] (tmp [<<] (64 - 47)); (* 3580 *)
  b10 -= b11 [+] k11; (* 3581 *)
  b11 -= k12; (* 3582 *)
  tmp <- b9 [^] b8; (* 3583 *)
  b9 <- (tmp [>>] 12) [|] (tmp [<<] (64 - 12)); (* 3584 *)
  b8 -= b9 [+] k9; (* 3585 *)
  b9 -= k10; (* 3586 *)
  tmp <- b7 [^] b6; (* 3587 *)
  b7 <- (tmp [>>] 31) [|] (tmp [<<] (64 - 31)); (* 3588 *)
  b6 -= b7 [+] k7; (* 3589 *)
  b7 -= k8; (* 3590 *)
  tmp <- b5 [^] b4; (* 3591 *)
  b5 <- (tmp [>>] 37) [|] (tmp [<<] (64 - 37)); (* 3592 *)
  b4 -= b5 [+] k5; (* 3593 *)
  b5 -= k6; (* 3594 *)
  tmp <- b3 [^] b2; (* 3595 *)
  b3 <- (tmp [>>] 9) [|] (tmp [<<] (64 - 9)); (* 3596 *)
  b2 -= b3 [+] k3; (* 3597 *)
  b3 -= k4; (* 3598 *)
  tmp <- b1 [^] b0; (* 3599 *)
  b1 <- (tmp [>>] 41) [|] (tmp [<<] (64 - 41)); (* 3600 *)
  b0 -= b1 [+] k1; (* 3601 *)
  b1 -= k2; (* 3602 *)
  tmp <- b7 [^] b12; (* 3603 *)
  b7 <- (tmp [>>] 25) [|] (tmp [<<] (64 - 25)); (* 3604 *)
  b12 -= b7; (* 3605 *)
  tmp <- b3 [^] b10; (* 3606 *)
  b3 <- (tmp [>>] 16) [|] (tmp [<<] (64 - 16)); (* 3607 *)
  b10 -= b3; (* 3608 *)
  tmp <- b5 [^] b8; (* 3609 *)
  b5 <- (tmp [>>] 28) [|] (tmp [<<] (64 - 28)); (* 3610 *)
  b8 -= b5; (* 3611 *)
  tmp <- b1 [^] b14; (* 3612 *)
  b1 <- (tmp [>>] 47) [|] (tmp [<<] (64 - 47)); (* 3613 *)
  b14 -= b1; (* 3614 *)
  tmp <- b9 [^] b4; (* 3615 *)
  b9 <- (tmp [>>] 41) [|] (tmp [<<] (64 - 41)); (* 3616 *)
  b4 -= b9; (* 3617 *)
  tmp <- b13 [^] b6; (* 3618 *)
  b13 <- (tmp [>>] 48) [|] (tmp [<<] (64 - 48)); (* 3619 *)
  b6 -= b13; (* 3620 *)
  tmp <- b11 [^] b2; (* 3621 *)
  b11 <- (tmp [>>] 20) [|] (tmp [<<] (64 - 20)); (* 3622 *)
  b2 -= b11; (* 3623 *)
  tmp <- b15 [^] b0; (* 3624 *)
  b15 <- (tmp [>>] 5) [|] (tmp [<<] (64 - 5)); (* 3625 *)
  b0 -= b15; (* 3626 *)
  tmp <- b9 [^] b10; (* 3627 *)
  b9 <- (tmp [>>] 17) [|] (tmp [<<] (64 - 17)); (* 3628 *)
  b10 -= b9; (* 3629 *)
  tmp <- b11 [^] b8; (* 3630 *)
  b11 <- (tmp [>>] 59) [|] (tmp [<<] (64 - 59)); (* 3631 *)
  b8 -= b11; (* 3632 *)
  tmp <- b13 [^] b14; (* 3633 *)
  b13 <- (tmp [>>] 41) [|] (tmp [<<] (64 - 41)); (* 3634 *)
  b14 -= b13; (* 3635 *)
  tmp <- b15 [^] b12; (* 3636 *)
  b15 <- (tmp [>>] 34) [|] (tmp [<<] (64 - 34)); (* 3637 *)
  b12 -= b15; (* 3638 *)
  tmp <- b1 [^] b6; (* 3639 *)
  b1 <- (tmp [>>] 13) [|] (tmp [<<] (64 - 13)); (* 3640 *)
  b6 -= b1; (* 3641 *)
  tmp <- b3 [^] b4; (* 3642 *)
  b3 <- (tmp [>>] 51) [|] (tmp [<<] (64 - 51)); (* 3643 *)
  b4 -= b3; (* 3644 *)
  tmp <- b5 [^] b2; (* 3645 *)
  b5 <- (tmp [>>] 4) [|] (tmp [<<] (64 - 4)); (* 3646 *)
  b2 -= b5; (* 3647 *)
  tmp <- b7 [^] b0; (* 3648 *)
  b7 <- (tmp [>>] 33) [|] (tmp [<<] (64 - 33)); (* 3649 *)
  b0 -= b7; (* 3650 *)
  tmp <- b1 [^] b8; (* 3651 *)
  b1 <- (tmp [>>] 52) [|] (tmp [<<] (64 - 52)); (* 3652 *)
  b8 -= b1; (* 3653 *)
  tmp <- b5 [^] b14; (* 3654 *)
  b5 <- (tmp [>>] 23) [|] (tmp [<<] (64 - 23)); (* 3655 *)
  b14 -= b5; (* 3656 *)
  tmp <- b3 [^] b12; (* 3657 *)
  b3 <- (tmp [>>] 18) [|] (tmp [<<] (64 - 18)); (* 3658 *)
  b12 -= b3; (* 3659 *)
  tmp <- b7 [^] b10; (* 3660 *)
  b7 <- (tmp [>>] 49) [|] (tmp [<<] (64 - 49)); (* 3661 *)
  b10 -= b7; (* 3662 *)
  tmp <- b15 [^] b4; (* 3663 *)
  b15 <- (tmp [>>] 55) [|] (tmp [<<] (64 - 55)); (* 3664 *)
  b4 -= b15; (* 3665 *)
  tmp <- b11 [^] b6; (* 3666 *)
  b11 <- (tmp [>>] 10) [|] (tmp [<<] (64 - 10)); (* 3667 *)
  b6 -= b11; (* 3668 *)
  tmp <- b13 [^] b2; (* 3669 *)
  b13 <- (tmp [>>] 19) [|] (tmp [<<] (64 - 19)); (* 3670 *)
  b2 -= b13; (* 3671 *)
  tmp <- b9 [^] b0; (* 3672 *)
  b9 <- (tmp [>>] 38) [|] (tmp [<<] (64 - 38)); (* 3673 *)
  b0 -= b9; (* 3674 *)
  tmp <- b15 [^] b14; (* 3675 *)
  b15 <- (tmp [>>] 37) [|] (tmp [<<] (64 - 37)); (* 3676 *)
  b14 -= b15 [+] k14 [+] t1; (* 3677 *)
  b15 -= k15; (* 3678 *)
  tmp <- b13 [^] b12; (* 3679 *)
  b13 <- (tmp [>>] 22) [|] (tmp [<<] (64 - 22)); (* 3680 *)
  b12 -= b13 [+] k12; (* 3681 *)
  b13 -= k13 [+] t0; (* 3682 *)
  tmp <- b11 [^] b10; (* 3683 *)
  b11 <- (tmp [>>] 17) [|] (tmp [<<] (64 - 17)); (* 3684 *)
  b10 -= b11 [+] k10; (* 3685 *)
  b11 -= k11; (* 3686 *)
  tmp <- b9 [^] b8; (* 3687 *)
  b9 <- (tmp [>>] 8) [|] (tmp [<<] (64 - 8)); (* 3688 *)
  b8 -= b9 [+] k8; (* 3689 *)
  b9 -= k9; (* 3690 *)
  tmp <- b7 [^] b6; (* 3691 *)
  b7 <- (tmp [>>] 47) [|] (tmp [<<] (64 - 47)); (* 3692 *)
  b6 -= b7 [+] k6; (* 3693 *)
  b7 -= k7; (* 3694 *)
  tmp <- b5 [^] b4; (* 3695 *)
  b5 <- (tmp [>>] 8) [|] (tmp [<<] (64 - 8)); (* 3696 *)
  b4 -= b5 [+] k4; (* 3697 *)
  b5 -= k5; (* 3698 *)
  tmp <- b3 [^] b2; (* 3699 *)
  b3 <- (tmp [>>] 13) [|] (tmp [<<] (64 - 13)); (* 3700 *)
  b2 -= b3 [+] k2; (* 3701 *)
  b3 -= k3; (* 3702 *)
  tmp <- b1 [^] b0; (* 3703 *)
  b1 <- (tmp [>>] 24) [|] (tmp [<<] (64 - 24)); (* 3704 *)
  b0 -= b1 [+] k0; (* 3705 *)
  b1 -= k1; (* 3706 *)
  (Out 15) <- b15; (* 3708 *)
  (Out 14) <- b14; (* 3709 *)
  (Out 13) <- b13; (* 3710 *)
  (Out 12) <- b12; (* 3711 *)
  (Out 11) <- b11; (* 3712 *)
  (Out 10) <- b10; (* 3713 *)
  (Out 9) <- b9; (* 3714 *)
  (Out 8) <- b8; (* 3715 *)
  (Out 7) <- b7; (* 3716 *)
  (Out 6) <- b6; (* 3717 *)
  (Out 5) <- b5; (* 3718 *)
  (Out 4) <- b4; (* 3719 *)
  (Out 3) <- b3; (* 3720 *)
  (Out 2) <- b2; (* 3721 *)
  (Out 1) <- b1; (* 3722 *)
  (Out 0) <- b0 (* 3723 *)
].

