(** Generated by tools/gen_tf.py from crypter/crypter512.go: one item per Go statement,
    in order; the trailing comment is the Go line number.  Do not edit. *)
From Coq Require Import ZArith List.
From Verif Require Import TfLang.
Import ListNotations.
Open Scope Z_scope.

Local Notation b0 := (B 0). Local Notation b1 := (B 1). Local Notation b2 := (B 2). Local Notation b3 := (B 3). Local Notation b4 := (B 4). Local Notation b5 := (B 5). Local Notation b6 := (B 6). Local Notation b7 := (B 7).
Local Notation k0 := (K 0). Local Notation k1 := (K 1). Local Notation k2 := (K 2). Local Notation k3 := (K 3). Local Notation k4 := (K 4). Local Notation k5 := (K 5). Local Notation k6 := (K 6). Local Notation k7 := (K 7). Local Notation k8 := (K 8).
Local Notation t0 := (T 0). Local Notation t1 := (T 1). Local Notation t2 := (T 2).
Local Notation tmp := Tmp.
Local Open Scope tf_scope.

(** crypter/crypter512.go:66-748, func (tf *threefish512) encrypt. *)
Definition encrypt512_body : list stmt := [
  b0 <- EV (In 0); (* 68 *)
  b1 <- EV (In 1); (* 69 *)
  b2 <- EV (In 2); (* 70 *)
  b3 <- EV (In 3); (* 71 *)
  b4 <- EV (In 4); (* 72 *)
  b5 <- EV (In 5); (* 73 *)
  b6 <- EV (In 6); (* 74 *)
  b7 <- EV (In 7); (* 75 *)
  k0 <- EV (XK 0); (* 77 *)
  k1 <- EV (XK 1); (* 78 *)
  k2 <- EV (XK 2); (* 79 *)
  k3 <- EV (XK 3); (* 80 *)
  k4 <- EV (XK 4); (* 81 *)
  k5 <- EV (XK 5); (* 82 *)
  k6 <- EV (XK 6); (* 83 *)
  k7 <- EV (XK 7); (* 84 *)
  k8 <- EV (XK 8); (* 85 *)
  t0 <- EV (XT 0); (* 87 *)
  t1 <- EV (XT 1); (* 88 *)
  t2 <- EV (XT 2); (* 89 *)
  b1 += k1; (* 91 *)
  b0 += b1 [+] k0; (* 92 *)
  b1 <- ((b1 [<<] 46) [|] (b1 [>>] (64 - 46))) [^] b0; (* 93 *)
  b3 += k3; (* 94 *)
  b2 += b3 [+] k2; (* 95 *)
  b3 <- ((b3 [<<] 36) [|] (b3 [>>] (64 - 36))) [^] b2; (* 96 *)
  b5 += k5 [+] t0; (* 97 *)
  b4 += b5 [+] k4; (* 98 *)
  b5 <- ((b5 [<<] 19) [|] (b5 [>>] (64 - 19))) [^] b4; (* 99 *)
  b7 += k7; (* 100 *)
  b6 += b7 [+] k6 [+] t1; (* 101 *)
  b7 <- ((b7 [<<] 37) [|] (b7 [>>] (64 - 37))) [^] b6; (* 102 *)
  b2 += b1; (* 103 *)
  b1 <- ((b1 [<<] 33) [|] (b1 [>>] (64 - 33))) [^] b2; (* 104 *)
  b4 += b7; (* 105 *)
  b7 <- ((b7 [<<] 27) [|] (b7 [>>] (64 - 27))) [^] b4; (* 106 *)
  b6 += b5; (* 107 *)
  b5 <- ((b5 [<<] 14) [|] (b5 [>>] (64 - 14))) [^] b6; (* 108 *)
  b0 += b3; (* 109 *)
  b3 <- ((b3 [<<] 42) [|] (b3 [>>] (64 - 42))) [^] b0; (* 110 *)
  b4 += b1; (* 111 *)
  b1 <- ((b1 [<<] 17) [|] (b1 [>>] (64 - 17))) [^] b4; (* 112 *)
  b6 += b3; (* 113 *)
  b3 <- ((b3 [<<] 49) [|] (b3 [>>] (64 - 49))) [^] b6; (* 114 *)
  b0 += b5; (* 115 *)
  b5 <- ((b5 [<<] 36) [|] (b5 [>>] (64 - 36))) [^] b0; (* 116 *)
  b2 += b7; (* 117 *)
  b7 <- ((b7 [<<] 39) [|] (b7 [>>] (64 - 39))) [^] b2; (* 118 *)
  b6 += b1; (* 119 *)
  b1 <- ((b1 [<<] 44) [|] (b1 [>>] (64 - 44))) [^] b6; (* 120 *)
  b0 += b7; (* 121 *)
  b7 <- ((b7 [<<] 9) [|] (b7 [>>] (64 - 9))) [^] b0; (* 122 *)
  b2 += b5; (* 123 *)
  b5 <- ((b5 [<<] 54) [|] (b5 [>>] (64 - 54))) [^] b2; (* 124 *)
  b4 += b3; (* 125 *)
  b3 <- ((b3 [<<] 56) [|] (b3 [>>] (64 - 56))) [^] b4; (* 126 *)
  b1 += k2; (* 127 *)
  b0 += b1 [+] k1; (* 128 *)
  b1 <- ((b1 [<<] 39) [|] (b1 [>>] (64 - 39))) [^] b0; (* 129 *)
  b3 += k4; (* 130 *)
  b2 += b3 [+] k3; (* 131 *)
  b3 <- ((b3 [<<] 30) [|] (b3 [>>] (64 - 30))) [^] b2; (* 132 *)
  b5 += k6 [+] t1; (* 133 *)
  b4 += b5 [+] k5; (* 134 *)
  b5 <- ((b5 [<<] 34) [|] (b5 [>>] (64 - 34))) [^] b4; (* 135 *)
  b7 += k8 [+] EC 1; (* 136 *)
  b6 += b7 [+] k7 [+] t2; (* 137 *)
  b7 <- ((b7 [<<] 24) [|] (b7 [>>] (64 - 24))) [^] b6; (* 138 *)
  b2 += b1; (* 139 *)
  b1 <- ((b1 [<<] 13) [|] (b1 [>>] (64 - 13))) [^] b2; (* 140 *)
  b4 += b7; (* 141 *)
  b7 <- ((b7 [<<] 50) [|] (b7 [>>] (64 - 50))) [^] b4; (* 142 *)
  b6 += b5; (* 143 *)
  b5 <- ((b5 [<<] 10) [|] (b5 [>>] (64 - 10))) [^] b6; (* 144 *)
  b0 += b3; (* 145 *)
  b3 <- ((b3 [<<] 17) [|] (b3 [>>] (64 - 17))) [^] b0; (* 146 *)
  b4 += b1; (* 147 *)
  b1 <- ((b1 [<<] 25) [|] (b1 [>>] (64 - 25))) [^] b4; (* 148 *)
  b6 += b3; (* 149 *)
  b3 <- ((b3 [<<] 29) [|] (b3 [>>] (64 - 29))) [^] b6; (* 150 *)
  b0 += b5; (* 151 *)
  b5 <- ((b5 [<<] 39) [|] (b5 [>>] (64 - 39))) [^] b0; (* 152 *)
  b2 += b7; (* 153 *)
  b7 <- ((b7 [<<] 43) [|] (b7 [>>] (64 - 43))) [^] b2; (* 154 *)
  b6 += b1; (* 155 *)
  b1 <- ((b1 [<<] 8) [|] (b1 [>>] (64 - 8))) [^] b6; (* 156 *)
  b0 += b7; (* 157 *)
  b7 <- ((b7 [<<] 35) [|] (b7 [>>] (64 - 35))) [^] b0; (* 158 *)
  b2 += b5; (* 159 *)
  b5 <- ((b5 [<<] 56) [|] (b5 [>>] (64 - 56))) [^] b2; (* 160 *)
  b4 += b3; (* 161 *)
  b3 <- ((b3 [<<] 22) [|] (b3 [>>] (64 - 22))) [^] b4; (* 162 *)
  b1 += k3; (* 163 *)
  b0 += b1 [+] k2; (* 164 *)
  b1 <- ((b1 [<<] 46) [|] (b1 [>>] (64 - 46))) [^] b0; (* 165 *)
  b3 += k5; (* 166 *)
  b2 += b3 [+] k4; (* 167 *)
  b3 <- ((b3 [<<] 36) [|] (b3 [>>] (64 - 36))) [^] b2; (* 168 *)
  b5 += k7 [+] t2; (* 169 *)
  b4 += b5 [+] k6; (* 170 *)
  b5 <- ((b5 [<<] 19) [|] (b5 [>>] (64 - 19))) [^] b4; (* 171 *)
  b7 += k0 [+] EC 2; (* 172 *)
  b6 += b7 [+] k8 [+] t0; (* 173 *)
  b7 <- ((b7 [<<] 37) [|] (b7 [>>] (64 - 37))) [^] b6; (* 174 *)
  b2 += b1; (* 175 *)
  b1 <- ((b1 [<<] 33) [|] (b1 [>>] (64 - 33))) [^] b2; (* 176 *)
  b4 += b7; (* 177 *)
  b7 <- ((b7 [<<] 27) [|] (b7 [>>] (64 - 27))) [^] b4; (* 178 *)
  b6 += b5; (* 179 *)
  b5 <- ((b5 [<<] 14) [|] (b5 [>>] (64 - 14))) [^] b6; (* 180 *)
  b0 += b3; (* 181 *)
  b3 <- ((b3 [<<] 42) [|] (b3 [>>] (64 - 42))) [^] b0; (* 182 *)
  b4 += b1; (* 183 *)
  b1 <- ((b1 [<<] 17) [|] (b1 [>>] (64 - 17))) [^] b4; (* 184 *)
  b6 += b3; (* 185 *)
  b3 <- ((b3 [<<] 49) [|] (b3 [>>] (64 - 49))) [^] b6; (* 186 *)
  b0 += b5; (* 187 *)
  b5 <- ((b5 [<<] 36) [|] (b5 [>>] (64 - 36))) [^] b0; (* 188 *)
  b2 += b7; (* 189 *)
  b7 <- ((b7 [<<] 39) [|] (b7 [>>] (64 - 39))) [^] b2; (* 190 *)
  b6 += b1; (* 191 *)
  b1 <- ((b1 [<<] 44) [|] (b1 [>>] (64 - 44))) [^] b6; (* 192 *)
  b0 += b7; (* 193 *)
  b7 <- ((b7 [<<] 9) [|] (b7 [>>] (64 - 9))) [^] b0; (* 194 *)
  b2 += b5; (* 195 *)
  b5 <- ((b5 [<<] 54) [|] (b5 [>>] (64 - 54))) [^] b2; (* 196 *)
  b4 += b3; (* 197 *)
  b3 <- ((b3 [<<] 56) [|] (b3 [>>] (64 - 56))) [^] b4; (* 198 *)
  b1 += k4; (* 199 *)
  b0 += b1 [+] k3; (* 200 *)
  b1 <- ((b1 [<<] 39) [|] (b1 [>>] (64 - 39))) [^] b0; (* 201 *)
  b3 += k6; (* 202 *)
  b2 += b3 [+] k5; (* 203 *)
  b3 <- ((b3 [<<] 30) [|] (b3 [>>] (64 - 30))) [^] b2; (* 204 *)
  b5 += k8 [+] t0; (* 205 *)
  b4 += b5 [+] k7; (* 206 *)
  b5 <- ((b5 [<<] 34) [|] (b5 [>>] (64 - 34))) [^] b4; (* 207 *)
  b7 += k1 [+] EC 3; (* 208 *)
  b6 += b7 [+] k0 [+] t1; (* 209 *)
  b7 <- ((b7 [<<] 24) [|] (b7 [>>] (64 - 24))) [^] b6; (* 210 *)
  b2 += b1; (* 211 *)
  b1 <- ((b1 [<<] 13) [|] (b1 [>>] (64 - 13))) [^] b2; (* 212 *)
  b4 += b7; (* 213 *)
  b7 <- ((b7 [<<] 50) [|] (b7 [>>] (64 - 50))) [^] b4; (* 214 *)
  b6 += b5; (* 215 *)
  b5 <- ((b5 [<<] 10) [|] (b5 [>>] (64 - 10))) [^] b6; (* 216 *)
  b0 += b3; (* 217 *)
  b3 <- ((b3 [<<] 17) [|] (b3 [>>] (64 - 17))) [^] b0; (* 218 *)
  b4 += b1; (* 219 *)
  b1 <- ((b1 [<<] 25) [|] (b1 [>>] (64 - 25))) [^] b4; (* 220 *)
  b6 += b3; (* 221 *)
  b3 <- ((b3 [<<] 29) [|] (b3 [>>] (64 - 29))) [^] b6; (* 222 *)
  b0 += b5; (* 223 *)
  b5 <- ((b5 [<<] 39) [|] (b5 [>>] (64 - 39))) [^] b0; (* 224 *)
  b2 += b7; (* 225 *)
  b7 <- ((b7 [<<] 43) [|] (b7 [>>] (64 - 43))) [^] b2; (* 226 *)
  b6 += b1; (* 227 *)
  b1 <- ((b1 [<<] 8) [|] (b1 [>>] (64 - 8))) [^] b6; (* 228 *)
  b0 += b7; (* 229 *)
  b7 <- ((b7 [<<] 35) [|] (b7 [>>] (64 - 35))) [^] b0; (* 230 *)
  b2 += b5; (* 231 *)
  b5 <- ((b5 [<<] 56) [|] (b5 [>>] (64 - 56))) [^] b2; (* 232 *)
  b4 += b3; (* 233 *)
  b3 <- ((b3 [<<] 22) [|] (b3 [>>] (64 - 22))) [^] b4; (* 234 *)
  b1 += k5; (* 235 *)
  b0 += b1 [+] k4; (* 236 *)
  b1 <- ((b1 [<<] 46) [|] (b1 [>>] (64 - 46))) [^] b0; (* 237 *)
  b3 += k7; (* 238 *)
  b2 += b3 [+] k6; (* 239 *)
  b3 <- ((b3 [<<] 36) [|] (b3 [>>] (64 - 36))) [^] b2; (* 240 *)
  b5 += k0 [+] t1; (* 241 *)
  b4 += b5 [+] k8; (* 242 *)
  b5 <- ((b5 [<<] 19) [|] (b5 [>>] (64 - 19))) [^] b4; (* 243 *)
  b7 += k2 [+] EC 4; (* 244 *)
  b6 += b7 [+] k1 [+] t2; (* 245 *)
  b7 <- ((b7 [<<] 37) [|] (b7 [>>] (64 - 37))) [^] b6; (* 246 *)
  b2 += b1; (* 247 *)
  b1 <- ((b1 [<<] 33) [|] (b1 [>>] (64 - 33))) [^] b2; (* 248 *)
  b4 += b7; (* 249 *)
  b7 <- ((b7 [<<] 27) [|] (b7 [>>] (64 - 27))) [^] b4; (* 250 *)
  b6 += b5; (* 251 *)
  b5 <- ((b5 [<<] 14) [|] (b5 [>>] (64 - 14))) [^] b6; (* 252 *)
  b0 += b3; (* 253 *)
  b3 <- ((b3 [<<] 42) [|] (b3 [>>] (64 - 42))) [^] b0; (* 254 *)
  b4 += b1; (* 255 *)
  b1 <- ((b1 [<<] 17) [|] (b1 [>>] (64 - 17))) [^] b4; (* 256 *)
  b6 += b3; (* 257 *)
  b3 <- ((b3 [<<] 49) [|] (b3 [>>] (64 - 49))) [^] b6; (* 258 *)
  b0 += b5; (* 259 *)
  b5 <- ((b5 [<<] 36) [|] (b5 [>>] (64 - 36))) [^] b0; (* 260 *)
  b2 += b7; (* 261 *)
  b7 <- ((b7 [<<] 39) [|] (b7 [>>] (64 - 39))) [^] b2; (* 262 *)
  b6 += b1; (* 263 *)
  b1 <- ((b1 [<<] 44) [|] (b1 [>>] (64 - 44))) [^] b6; (* 264 *)
  b0 += b7; (* 265 *)
  b7 <- ((b7 [<<] 9) [|] (b7 [>>] (64 - 9))) [^] b0; (* 266 *)
  b2 += b5; (* 267 *)
  b5 <- ((b5 [<<] 54) [|] (b5 [>>] (64 - 54))) [^] b2; (* 268 *)
  b4 += b3; (* 269 *)
  b3 <- ((b3 [<<] 56) [|] (b3 [>>] (64 - 56))) [^] b4; (* 270 *)
  b1 += k6; (* 271 *)
  b0 += b1 [+] k5; (* 272 *)
  b1 <- ((b1 [<<] 39) [|] (b1 [>>] (64 - 39))) [^] b0; (* 273 *)
  b3 += k8; (* 274 *)
  b2 += b3 [+] k7; (* 275 *)
  b3 <- ((b3 [<<] 30) [|] (b3 [>>] (64 - 30))) [^] b2; (* 276 *)
  b5 += k1 [+] t2; (* 277 *)
  b4 += b5 [+] k0; (* 278 *)
  b5 <- ((b5 [<<] 34) [|] (b5 [>>] (64 - 34))) [^] b4; (* 279 *)
  b7 += k3 [+] EC 5; (* 280 *)
  b6 += b7 [+] k2 [+] t0; (* 281 *)
  b7 <- ((b7 [<<] 24) [|] (b7 [>>] (64 - 24))) [^] b6; (* 282 *)
  b2 += b1; (* 283 *)
  b1 <- ((b1 [<<] 13) [|] (b1 [>>] (64 - 13))) [^] b2; (* 284 *)
  b4 += b7; (* 285 *)
  b7 <- ((b7 [<<] 50) [|] (b7 [>>] (64 - 50))) [^] b4; (* 286 *)
  b6 += b5; (* 287 *)
  b5 <- ((b5 [<<] 10) [|] (b5 [>>] (64 - 10))) [^] b6; (* 288 *)
  b0 += b3; (* 289 *)
  b3 <- ((b3 [<<] 17) [|] (b3 [>>] (64 - 17))) [^] b0; (* 290 *)
  b4 += b1; (* 291 *)
  b1 <- ((b1 [<<] 25) [|] (b1 [>>] (64 - 25))) [^] b4; (* 292 *)
  b6 += b3; (* 293 *)
  b3 <- ((b3 [<<] 29) [|] (b3 [>>] (64 - 29))) [^] b6; (* 294 *)
  b0 += b5; (* 295 *)
  b5 <- ((b5 [<<] 39) [|] (b5 [>>] (64 - 39))) [^] b0; (* 296 *)
  b2 += b7; (* 297 *)
  b7 <- ((b7 [<<] 43) [|] (b7 [>>] (64 - 43))) [^] b2; (* 298 *)
  b6 += b1; (* 299 *)
  b1 <- ((b1 [<<] 8) [|] (b1 [>>] (64 - 8))) [^] b6; (* 300 *)
  b0 += b7; (* 301 *)
  b7 <- ((b7 [<<] 35) [|] (b7 [>>] (64 - 35))) [^] b0; (* 302 *)
  b2 += b5; (* 303 *)
  b5 <- ((b5 [<<] 56) [|] (b5 [>>] (64 - 56))) [^] b2; (* 304 *)
  b4 += b3; (* 305 *)
  b3 <- ((b3 [<<] 22) [|] (b3 [>>] (64 - 22))) [^] b4; (* 306 *)
  b1 += k7; (* 307 *)
  b0 += b1 [+] k6; (* 308 *)
  b1 <- ((b1 [<<] 46) [|] (b1 [>>] (64 - 46))) [^] b0; (* 309 *)
  b3 += k0; (* 310 *)
  b2 += b3 [+] k8; (* 311 *)
  b3 <- ((b3 [<<] 36) [|] (b3 [>>] (64 - 36))) [^] b2; (* 312 *)
  b5 += k2 [+] t0; (* 313 *)
  b4 += b5 [+] k1; (* 314 *)
  b5 <- ((b5 [<<] 19) [|] (b5 [>>] (64 - 19))) [^] b4; (* 315 *)
  b7 += k4 [+] EC 6; (* 316 *)
  b6 += b7 [+] k3 [+] t1; (* 317 *)
  b7 <- ((b7 [<<] 37) [|] (b7 [>>] (64 - 37))) [^] b6; (* 318 *)
  b2 += b1; (* 319 *)
  b1 <- ((b1 [<<] 33) [|] (b1 [>>] (64 - 33))) [^] b2; (* 320 *)
  b4 += b7; (* 321 *)
  b7 <- ((b7 [<<] 27) [|] (b7 [>>] (64 - 27))) [^] b4; (* 322 *)
  b6 += b5; (* 323 *)
  b5 <- ((b5 [<<] 14) [|] (b5 [>>] (64 - 14))) [^] b6; (* 324 *)
  b0 += b3; (* 325 *)
  b3 <- ((b3 [<<] 42) [|] (b3 [>>] (64 - 42))) [^] b0; (* 326 *)
  b4 += b1; (* 327 *)
  b1 <- ((b1 [<<] 17) [|] (b1 [>>] (64 - 17))) [^] b4; (* 328 *)
  b6 += b3; (* 329 *)
  b3 <- ((b3 [<<] 49) [|] (b3 [>>] (64 - 49))) [^] b6; (* 330 *)
  b0 += b5; (* 331 *)
  b5 <- ((b5 [<<] 36) [|] (b5 [>>] (64 - 36))) [^] b0; (* 332 *)
  b2 += b7; (* 333 *)
  b7 <- ((b7 [<<] 39) [|] (b7 [>>] (64 - 39))) [^] b2; (* 334 *)
  b6 += b1; (* 335 *)
  b1 <- ((b1 [<<] 44) [|] (b1 [>>] (64 - 44))) [^] b6; (* 336 *)
  b0 += b7; (* 337 *)
  b7 <- ((b7 [<<] 9) [|] (b7 [>>] (64 - 9))) [^] b0; (* 338 *)
  b2 += b5; (* 339 *)
  b5 <- ((b5 [<<] 54) [|] (b5 [>>] (64 - 54))) [^] b2; (* 340 *)
  b4 += b3; (* 341 *)
  b3 <- ((b3 [<<] 56) [|] (b3 [>>] (64 - 56))) [^] b4; (* 342 *)
  b1 += k8; (* 343 *)
  b0 += b1 [+] k7; (* 344 *)
  b1 <- ((b1 [<<] 39) [|] (b1 [>>] (64 - 39))) [^] b0; (* 345 *)
  b3 += k1; (* 346 *)
  b2 += b3 [+] k0; (* 347 *)
  b3 <- ((b3 [<<] 30) [|] (b3 [>>] (64 - 30))) [^] b2; (* 348 *)
  b5 += k3 [+] t1; (* 349 *)
  b4 += b5 [+] k2; (* 350 *)
  b5 <- ((b5 [<<] 34) [|] (b5 [>>] (64 - 34))) [^] b4; (* 351 *)
  b7 += k5 [+] EC 7; (* 352 *)
  b6 += b7 [+] k4 [+] t2; (* 353 *)
  b7 <- ((b7 [<<] 24) [|] (b7 [>>] (64 - 24))) [^] b6; (* 354 *)
  b2 += b1; (* 355 *)
  b1 <- ((b1 [<<] 13) [|] (b1 [>>] (64 - 13))) [^] b2; (* 356 *)
  b4 += b7; (* 357 *)
  b7 <- ((b7 [<<] 50) [|] (b7 [>>] (64 - 50))) [^] b4; (* 358 *)
  b6 += b5; (* 359 *)
  b5 <- ((b5 [<<] 10) [|] (b5 [>>] (64 - 10))) [^] b6; (* 360 *)
  b0 += b3; (* 361 *)
  b3 <- ((b3 [<<] 17) [|] (b3 [>>] (64 - 17))) [^] b0; (* 362 *)
  b4 += b1; (* 363 *)
  b1 <- ((b1 [<<] 25) [|] (b1 [>>] (64 - 25))) [^] b4; (* 364 *)
  b6 += b3; (* 365 *)
  b3 <- ((b3 [<<] 29) [|] (b3 [>>] (64 - 29))) [^] b6; (* 366 *)
  b0 += b5; (* 367 *)
  b5 <- ((b5 [<<] 39) [|] (b5 [>>] (64 - 39))) [^] b0; (* 368 *)
  b2 += b7; (* 369 *)
  b7 <- ((b7 [<<] 43) [|] (b7 [>>] (64 - 43))) [^] b2; (* 370 *)
  b6 += b1; (* 371 *)
  b1 <- ((b1 [<<] 8) [|] (b1 [>>] (64 - 8))) [^] b6; (* 372 *)
  b0 += b7; (* 373 *)
  b7 <- ((b7 [<<] 35) [|] (b7 [>>] (64 - 35))) [^] b0; (* 374 *)
  b2 += b5; (* 375 *)
  b5 <- ((b5 [<<] 56) [|] (b5 [>>] (64 - 56))) [^] b2; (* 376 *)
  b4 += b3; (* 377 *)
  b3 <- ((b3 [<<] 22) [|] (b3 [>>] (64 - 22))) [^] b4; (* 378 *)
  b1 += k0; (* 379 *)
  b0 += b1 [+] k8; (* 380 *)
  b1 <- ((b1 [<<] 46) [|] (b1 [>>] (64 - 46))) [^] b0; (* 381 *)
  b3 += k2; (* 382 *)
  b2 += b3 [+] k1; (* 383 *)
  b3 <- ((b3 [<<] 36) [|] (b3 [>>] (64 - 36))) [^] b2; (* 384 *)
  b5 += k4 [+] t2; (* 385 *)
  b4 += b5 [+] k3; (* 386 *)
  b5 <- ((b5 [<<] 19) [|] (b5 [>>] (64 - 19))) [^] b4; (* 387 *)
  b7 += k6 [+] EC 8; (* 388 *)
  b6 += b7 [+] k5 [+] t0; (* 389 *)
  b7 <- ((b7 [<<] 37) [|] (b7 [>>] (64 - 37))) [^] b6; (* 390 *)
  b2 += b1; (* 391 *)
  b1 <- ((b1 [<<] 33) [|] (b1 [>>] (64 - 33))) [^] b2; (* 392 *)
  b4 += b7; (* 393 *)
  b7 <- ((b7 [<<] 27) [|] (b7 [>>] (64 - 27))) [^] b4; (* 394 *)
  b6 += b5; (* 395 *)
  b5 <- ((b5 [<<] 14) [|] (b5 [>>] (64 - 14))) [^] b6; (* 396 *)
  b0 += b3; (* 397 *)
  b3 <- ((b3 [<<] 42) [|] (b3 [>>] (64 - 42))) [^] b0; (* 398 *)
  b4 += b1; (* 399 *)
  b1 <- ((b1 [<<] 17) [|] (b1 [>>] (64 - 17))) [^] b4; (* 400 *)
  b6 += b3; (* 401 *)
  b3 <- ((b3 [<<] 49) [|] (b3 [>>] (64 - 49))) [^] b6; (* 402 *)
  b0 += b5; (* 403 *)
  b5 <- ((b5 [<<] 36) [|] (b5 [>>] (64 - 36))) [^] b0; (* 404 *)
  b2 += b7; (* 405 *)
  b7 <- ((b7 [<<] 39) [|] (b7 [>>] (64 - 39))) [^] b2; (* 406 *)
  b6 += b1; (* 407 *)
  b1 <- ((b1 [<<] 44) [|] (b1 [>>] (64 - 44))) [^] b6; (* 408 *)
  b0 += b7; (* 409 *)
  b7 <- ((b7 [<<] 9) [|] (b7 [>>] (64 - 9))) [^] b0; (* 410 *)
  b2 += b5; (* 411 *)
  b5 <- ((b5 [<<] 54) [|] (b5 [>>] (64 - 54))) [^] b2; (* 412 *)
  b4 += b3; (* 413 *)
  b3 <- ((b3 [<<] 56) [|] (b3 [>>] (64 - 56))) [^] b4; (* 414 *)
  b1 += k1; (* 415 *)
  b0 += b1 [+] k0; (* 416 *)
  b1 <- ((b1 [<<] 39) [|] (b1 [>>] (64 - 39))) [^] b0; (* 417 *)
  b3 += k3; (* 418 *)
  b2 += b3 [+] k2; (* 419 *)
  b3 <- ((b3 [<<] 30) [|] (b3 [>>] (64 - 30))) [^] b2; (* 420 *)
  b5 += k5 [+] t0; (* 421 *)
  b4 += b5 [+] k4; (* 422 *)
  b5 <- ((b5 [<<] 34) [|] (b5 [>>] (64 - 34))) [^] b4; (* 423 *)
  b7 += k7 [+] EC 9; (* 424 *)
  b6 += b7 [+] k6 [+] t1; (* 425 *)
  b7 <- ((b7 [<<] 24) [|] (b7 [>>] (64 - 24))) [^] b6; (* 426 *)
  b2 += b1; (* 427 *)
  b1 <- ((b1 [<<] 13) [|] (b1 [>>] (64 - 13))) [^] b2; (* 428 *)
  b4 += b7; (* 429 *)
  b7 <- ((b7 [<<] 50) [|] (b7 [>>] (64 - 50))) [^] b4; (* 430 *)
  b6 += b5; (* 431 *)
  b5 <- ((b5 [<<] 10) [|] (b5 [>>] (64 - 10))) [^] b6; (* 432 *)
  b0 += b3; (* 433 *)
  b3 <- ((b3 [<<] 17) [|] (b3 [>>] (64 - 17))) [^] b0; (* 434 *)
  b4 += b1; (* 435 *)
  b1 <- ((b1 [<<] 25) [|] (b1 [>>] (64 - 25))) [^] b4; (* 436 *)
  b6 += b3; (* 437 *)
  b3 <- ((b3 [<<] 29) [|] (b3 [>>] (64 - 29))) [^] b6; (* 438 *)
  b0 += b5; (* 439 *)
  b5 <- ((b5 [<<] 39) [|] (b5 [>>] (64 - 39))) [^] b0; (* 440 *)
  b2 += b7; (* 441 *)
  b7 <- ((b7 [<<] 43) [|] (b7 [>>] (64 - 43))) [^] b2; (* 442 *)
  b6 += b1; (* 443 *)
  b1 <- ((b1 [<<] 8) [|] (b1 [>>] (64 - 8))) [^] b6; (* 444 *)
  b0 += b7; (* 445 *)
  b7 <- ((b7 [<<] 35) [|] (b7 [>>] (64 - 35))) [^] b0; (* 446 *)
  b2 += b5; (* 447 *)
  b5 <- ((b5 [<<] 56) [|] (b5 [>>] (64 - 56))) [^] b2; (* 448 *)
  b4 += b3; (* 449 *)
  b3 <- ((b3 [<<] 22) [|] (b3 [>>] (64 - 22))) [^] b4; (* 450 *)
  b1 += k2; (* 451 *)
  b0 += b1 [+] k1; (* 452 *)
  b1 <- ((b1 [<<] 46) [|] (b1 [>>] (64 - 46))) [^] b0; (* 453 *)
  b3 += k4; (* 454 *)
  b2 += b3 [+] k3; (* 455 *)
  b3 <- ((b3 [<<] 36) [|] (b3 [>>] (64 - 36))) [^] b2; (* 456 *)
  b5 += k6 [+] t1; (* 457 *)
  b4 += b5 [+] k5; (* 458 *)
  b5 <- ((b5 [<<] 19) [|] (b5 [>>] (64 - 19))) [^] b4; (* 459 *)
  b7 += k8 [+] EC 10; (* 460 *)
  b6 += b7 [+] k7 [+] t2; (* 461 *)
  b7 <- ((b7 [<<] 37) [|] (b7 [>>] (64 - 37))) [^] b6; (* 462 *)
  b2 += b1; (* 463 *)
  b1 <- ((b1 [<<] 33) [|] (b1 [>>] (64 - 33))) [^] b2; (* 464 *)
  b4 += b7; (* 465 *)
  b7 <- ((b7 [<<] 27) [|] (b7 [>>] (64 - 27))) [^] b4; (* 466 *)
  b6 += b5; (* 467 *)
  b5 <- ((b5 [<<] 14) [|] (b5 [>>] (64 - 14))) [^] b6; (* 468 *)
  b0 += b3; (* 469 *)
  b3 <- ((b3 [<<] 42) [|] (b3 [>>] (64 - 42))) [^] b0; (* 470 *)
  b4 += b1; (* 471 *)
  b1 <- ((b1 [<<] 17) [|] (b1 [>>] (64 - 17))) [^] b4; (* 472 *)
  b6 += b3; (* 473 *)
  b3 <- ((b3 [<<] 49) [|] (b3 [>>] (64 - 49))) [^] b6; (* 474 *)
  b0 += b5; (* 475 *)
  b5 <- ((b5 [<<] 36) [|] (b5 [>>] (64 - 36))) [^] b0; (* 476 *)
  b2 += b7; (* 477 *)
  b7 <- ((b7 [<<] 39) [|] (b7 [>>] (64 - 39))) [^] b2; (* 478 *)
  b6 += b1; (* 479 *)
  b1 <- ((b1 [<<] 44) [|] (b1 [>>] (64 - 44))) [^] b6; (* 480 *)
  b0 += b7; (* 481 *)
  b7 <- ((b7 [<<] 9) [|] (b7 [>>] (64 - 9))) [^] b0; (* 482 *)
  b2 += b5; (* 483 *)
  b5 <- ((b5 [<<] 54) [|] (b5 [>>] (64 - 54))) [^] b2; (* 484 *)
  b4 += b3; (* 485 *)
  b3 <- ((b3 [<<] 56) [|] (b3 [>>] (64 - 56))) [^] b4; (* 486 *)
  b1 += k3; (* 487 *)
  b0 += b1 [+] k2; (* 488 *)
  b1 <- ((b1 [<<] 39) [|] (b1 [>>] (64 - 39))) [^] b0; (* 489 *)
  b3 += k5; (* 490 *)
  b2 += b3 [+] k4; (* 491 *)
  b3 <- ((b3 [<<] 30) [|] (b3 [>>] (64 - 30))) [^] b2; (* 492 *)
  b5 += k7 [+] t2; (* 493 *)
  b4 += b5 [+] k6; (* 494 *)
  b5 <- ((b5 [<<] 34) [|] (b5 [>>] (64 - 34))) [^] b4; (* 495 *)
  b7 += k0 [+] EC 11; (* 496 *)
  b6 += b7 [+] k8 [+] t0; (* 497 *)
  b7 <- ((b7 [<<] 24) [|] (b7 [>>] (64 - 24))) [^] b6; (* 498 *)
  b2 += b1; (* 499 *)
  b1 <- ((b1 [<<] 13) [|] (b1 [>>] (64 - 13))) [^] b2; (* 500 *)
  b4 += b7; (* 501 *)
  b7 <- ((b7 [<<] 50) [|] (b7 [>>] (64 - 50))) [^] b4; (* 502 *)
  b6 += b5; (* 503 *)
  b5 <- ((b5 [<<] 10) [|] (b5 [>>] (64 - 10))) [^] b6; (* 504 *)
  b0 += b3; (* 505 *)
  b3 <- ((b3 [<<] 17) [|] (b3 [>>] (64 - 17))) [^] b0; (* 506 *)
  b4 += b1; (* 507 *)
  b1 <- ((b1 [<<] 25) [|] (b1 [>>] (64 - 25))) [^] b4; (* 508 *)
  b6 += b3; (* 509 *)
  b3 <- ((b3 [<<] 29) [|] (b3 [>>] (64 - 29))) [^] b6; (* 510 *)
  b0 += b5; (* 511 *)
  b5 <- ((b5 [<<] 39) [|] (b5 [>>] (64 - 39))) [^] b0; (* 512 *)
  b2 += b7; (* 513 *)
  b7 <- ((b7 [<<] 43) [|] (b7 [>>] (64 - 43))) [^] b2; (* 514 *)
  b6 += b1; (* 515 *)
  b1 <- ((b1 [<<] 8) [|] (b1 [>>] (64 - 8))) [^] b6; (* 516 *)
  b0 += b7; (* 517 *)
  b7 <- ((b7 [<<] 35) [|] (b7 [>>] (64 - 35))) [^] b0; (* 518 *)
  b2 += b5; (* 519 *)
  b5 <- ((b5 [<<] 56) [|] (b5 [>>] (64 - 56))) [^] b2; (* 520 *)
  b4 += b3; (* 521 *)
  b3 <- ((b3 [<<] 22) [|] (b3 [>>] (64 - 22))) [^] b4; (* 522 *)
  b1 += k4; (* 523 *)
  b0 += b1 [+] k3; (* 524 *)
  b1 <- ((b1 [<<] 46) [|] (b1 [>>] (64 - 46))) [^] b0; (* 525 *)
  b3 += k6; (* 526 *)
  b2 += b3 [+] k5; (* 527 *)
  b3 <- ((b3 [<<] 36) [|] (b3 [>>] (64 - 36))) [^] b2; (* 528 *)
  b5 += k8 [+] t0; (* 529 *)
  b4 += b5 [+] k7; (* 530 *)
  b5 <- ((b5 [<<] 19) [|] (b5 [>>] (64 - 19))) [^] b4; (* 531 *)
  b7 += k1 [+] EC 12; (* 532 *)
  b6 += b7 [+] k0 [+] t1; (* 533 *)
  b7 <- ((b7 [<<] 37) [|] (b7 [>>] (64 - 37))) [^] b6; (* 534 *)
  b2 += b1; (* 535 *)
  b1 <- ((b1 [<<] 33) [|] (b1 [>>] (64 - 33))) [^] b2; (* 536 *)
  b4 += b7; (* 537 *)
  b7 <- ((b7 [<<] 27) [|] (b7 [>>] (64 - 27))) [^] b4; (* 538 *)
  b6 += b5; (* 539 *)
  b5 <- ((b5 [<<] 14) [|] (b5 [>>] (64 - 14))) [^] b6; (* 540 *)
  b0 += b3; (* 541 *)
  b3 <- ((b3 [<<] 42) [|] (b3 [>>] (64 - 42))) [^] b0; (* 542 *)
  b4 += b1; (* 543 *)
  b1 <- ((b1 [<<] 17) [|] (b1 [>>] (64 - 17))) [^] b4; (* 544 *)
  b6 += b3; (* 545 *)
  b3 <- ((b3 [<<] 49) [|] (b3 [>>] (64 - 49))) [^] b6; (* 546 *)
  b0 += b5; (* 547 *)
  b5 <- ((b5 [<<] 36) [|] (b5 [>>] (64 - 36))) [^] b0; (* 548 *)
  b2 += b7; (* 549 *)
  b7 <- ((b7 [<<] 39) [|] (b7 [>>] (64 - 39))) [^] b2; (* 550 *)
  b6 += b1; (* 551 *)
  b1 <- ((b1 [<<] 44) [|] (b1 [>>] (64 - 44))) [^] b6; (* 552 *)
  b0 += b7; (* 553 *)
  b7 <- ((b7 [<<] 9) [|] (b7 [>>] (64 - 9))) [^] b0; (* 554 *)
  b2 += b5; (* 555 *)
  b5 <- ((b5 [<<] 54) [|] (b5 [>>] (64 - 54))) [^] b2; (* 556 *)
  b4 += b3; (* 557 *)
  b3 <- ((b3 [<<] 56) [|] (b3 [>>] (64 - 56))) [^] b4; (* 558 *)
  b1 += k5; (* 559 *)
  b0 += b1 [+] k4; (* 560 *)
  b1 <- ((b1 [<<] 39) [|] (b1 [>>] (64 - 39))) [^] b0; (* 561 *)
  b3 += k7; (* 562 *)
  b2 += b3 [+] k6; (* 563 *)
  b3 <- ((b3 [<<] 30) [|] (b3 [>>] (64 - 30))) [^] b2; (* 564 *)
  b5 += k0 [+] t1; (* 565 *)
  b4 += b5 [+] k8; (* 566 *)
  b5 <- ((b5 [<<] 34) [|] (b5 [>>] (64 - 34))) [^] b4; (* 567 *)
  b7 += k2 [+] EC 13; (* 568 *)
  b6 += b7 [+] k1 [+] t2; (* 569 *)
  b7 <- ((b7 [<<] 24) [|] (b7 [>>] (64 - 24))) [^] b6; (* 570 *)
  b2 += b1; (* 571 *)
  b1 <- ((b1 [<<] 13) [|] (b1 [>>] (64 - 13))) [^] b2; (* 572 *)
  b4 += b7; (* 573 *)
  b7 <- ((b7 [<<] 50) [|] (b7 [>>] (64 - 50))) [^] b4; (* 574 *)
  b6 += b5; (* 575 *)
  b5 <- ((b5 [<<] 10) [|] (b5 [>>] (64 - 10))) [^] b6; (* 576 *)
  b0 += b3; (* 577 *)
  b3 <- ((b3 [<<] 17) [|] (b3 [>>] (64 - 17))) [^] b0; (* 578 *)
  b4 += b1; (* 579 *)
  b1 <- ((b1 [<<] 25) [|] (b1 [>>] (64 - 25))) [^] b4; (* 580 *)
  b6 += b3; (* 581 *)
  b3 <- ((b3 [<<] 29) [|] (b3 [>>] (64 - 29))) [^] b6; (* 582 *)
  b0 += b5; (* 583 *)
  b5 <- ((b5 [<<] 39) [|] (b5 [>>] (64 - 39))) [^] b0; (* 584 *)
  b2 += b7; (* 585 *)
  b7 <- ((b7 [<<] 43) [|] (b7 [>>] (64 - 43))) [^] b2; (* 586 *)
  b6 += b1; (* 587 *)
  b1 <- ((b1 [<<] 8) [|] (b1 [>>] (64 - 8))) [^] b6; (* 588 *)
  b0 += b7; (* 589 *)
  b7 <- ((b7 [<<] 35) [|] (b7 [>>] (64 - 35))) [^] b0; (* 590 *)
  b2 += b5; (* 591 *)
  b5 <- ((b5 [<<] 56) [|] (b5 [>>] (64 - 56))) [^] b2; (* 592 *)
  b4 += b3; (* 593 *)
  b3 <- ((b3 [<<] 22) [|] (b3 [>>] (64 - 22))) [^] b4; (* 594 *)
  b1 += k6; (* 595 *)
  b0 += b1 [+] k5; (* 596 *)
  b1 <- ((b1 [<<] 46) [|] (b1 [>>] (64 - 46))) [^] b0; (* 597 *)
  b3 += k8; (* 598 *)
  b2 += b3 [+] k7; (* 599 *)
  b3 <- ((b3 [<<] 36) [|] (b3 [>>] (64 - 36))) [^] b2; (* 600 *)
  b5 += k1 [+] t2; (* 601 *)
  b4 += b5 [+] k0; (* 602 *)
  b5 <- ((b5 [<<] 19) [|] (b5 [>>] (64 - 19))) [^] b4; (* 603 *)
  b7 += k3 [+] EC 14; (* 604 *)
  b6 += b7 [+] k2 [+] t0; (* 605 *)
  b7 <- ((b7 [<<] 37) [|] (b7 [>>] (64 - 37))) [^] b6; (* 606 *)
  b2 += b1; (* 607 *)
  b1 <- ((b1 [<<] 33) [|] (b1 [>>] (64 - 33))) [^] b2; (* 608 *)
  b4 += b7; (* 609 *)
  b7 <- ((b7 [<<] 27) [|] (b7 [>>] (64 - 27))) [^] b4; (* 610 *)
  b6 += b5; (* 611 *)
  b5 <- ((b5 [<<] 14) [|] (b5 [>>] (64 - 14))) [^] b6; (* 612 *)
  b0 += b3; (* 613 *)
  b3 <- ((b3 [<<] 42) [|] (b3 [>>] (64 - 42))) [^] b0; (* 614 *)
  b4 += b1; (* 615 *)
  b1 <- ((b1 [<<] 17) [|] (b1 [>>] (64 - 17))) [^] b4; (* 616 *)
  b6 += b3; (* 617 *)
  b3 <- ((b3 [<<] 49) [|] (b3 [>>] (64 - 49))) [^] b6; (* 618 *)
  b0 += b5; (* 619 *)
  b5 <- ((b5 [<<] 36) [|] (b5 [>>] (64 - 36))) [^] b0; (* 620 *)
  b2 += b7; (* 621 *)
  b7 <- ((b7 [<<] 39) [|] (b7 [>>] (64 - 39))) [^] b2; (* 622 *)
  b6 += b1; (* 623 *)
  b1 <- ((b1 [<<] 44) [|] (b1 [>>] (64 - 44))) [^] b6; (* 624 *)
  b0 += b7; (* 625 *)
  b7 <- ((b7 [<<] 9) [|] (b7 [>>] (64 - 9))) [^] b0; (* 626 *)
  b2 += b5; (* 627 *)
  b5 <- ((b5 [<<] 54) [|] (b5 [>>] (64 - 54))) [^] b2; (* 628 *)
  b4 += b3; (* 629 *)
  b3 <- ((b3 [<<] 56) [|] (b3 [>>] (64 - 56))) [^] b4; (* 630 *)
  b1 += k7; (* 631 *)
  b0 += b1 [+] k6; (* 632 *)
  b1 <- ((b1 [<<] 39) [|] (b1 [>>] (64 - 39))) [^] b0; (* 633 *)
  b3 += k0; (* 634 *)
  b2 += b3 [+] k8; (* 635 *)
  b3 <- ((b3 [<<] 30) [|] (b3 [>>] (64 - 30))) [^] b2; (* 636 *)
  b5 += k2 [+] t0; (* 637 *)
  b4 += b5 [+] k1; (* 638 *)
  b5 <- ((b5 [<<] 34) [|] (b5 [>>] (64 - 34))) [^] b4; (* 639 *)
  b7 += k4 [+] EC 15; (* 640 *)
  b6 += b7 [+] k3 [+] t1; (* 641 *)
  b7 <- ((b7 [<<] 24) [|] (b7 [>>] (64 - 24))) [^] b6; (* 642 *)
  b2 += b1; (* 643 *)
  b1 <- ((b1 [<<] 13) [|] (b1 [>>] (64 - 13))) [^] b2; (* 644 *)
  b4 += b7; (* 645 *)
  b7 <- ((b7 [<<] 50) [|] (b7 [>>] (64 - 50))) [^] b4; (* 646 *)
  b6 += b5; (* 647 *)
  b5 <- ((b5 [<<] 10) [|] (b5 [>>] (64 - 10))) [^] b6; (* 648 *)
  b0 += b3; (* 649 *)
  b3 <- ((b3 [<<] 17) [|] (b3 [>>] (64 - 17))) [^] b0; (* 650 *)
  b4 += b1; (* 651 *)
  b1 <- ((b1 [<<] 25) [|] (b1 [>>] (64 - 25))) [^] b4; (* 652 *)
  b6 += b3; (* 653 *)
  b3 <- ((b3 [<<] 29) [|] (b3 [>>] (64 - 29))) [^] b6; (* 654 *)
  b0 += b5; (* 655 *)
  b5 <- ((b5 [<<] 39) [|] (b5 [>>] (64 - 39))) [^] b0; (* 656 *)
  b2 += b7; (* 657 *)
  b7 <- ((b7 [<<] 43) [|] (b7 [>>] (64 - 43))) [^] b2; (* 658 *)
  b6 += b1; (* 659 *)
  b1 <- ((b1 [<<] 8) [|] (b1 [>>] (64 - 8))) [^] b6; (* 660 *)
  b0 += b7; (* 661 *)
  b7 <- ((b7 [<<] 35) [|] (b7 [>>] (64 - 35))) [^] b0; (* 662 *)
  b2 += b5; (* 663 *)
  b5 <- ((b5 [<<] 56) [|] (b5 [>>] (64 - 56))) [^] b2; (* 664 *)
  b4 += b3; (* 665 *)
  b3 <- ((b3 [<<] 22) [|] (b3 [>>] (64 - 22))) [^] b4; (* 666 *)
  b1 += k8; (* 667 *)
  b0 += b1 [+] k7; (* 668 *)
  b1 <- ((b1 [<<] 46) [|] (b1 [>>] (64 - 46))) [^] b0; (* 669 *)
  b3 += k1; (* 670 *)
  b2 += b3 [+] k0; (* 671 *)
  b3 <- ((b3 [<<] 36) [|] (b3 [>>] (64 - 36))) [^] b2; (* 672 *)
  b5 += k3 [+] t1; (* 673 *)
  b4 += b5 [+] k2; (* 674 *)
  b5 <- ((b5 [<<] 19) [|] (b5 [>>] (64 - 19))) [^] b4; (* 675 *)
  b7 += k5 [+] EC 16; (* 676 *)
  b6 += b7 [+] k4 [+] t2; (* 677 *)
  b7 <- ((b7 [<<] 37) [|] (b7 [>>] (64 - 37))) [^] b6; (* 678 *)
  b2 += b1; (* 679 *)
  b1 <- ((b1 [<<] 33) [|] (b1 [>>] (64 - 33))) [^] b2; (* 680 *)
  b4 += b7; (* 681 *)
  b7 <- ((b7 [<<] 27) [|] (b7 [>>] (64 - 27))) [^] b4; (* 682 *)
  b6 += b5; (* 683 *)
  b5 <- ((b5 [<<] 14) [|] (b5 [>>] (64 - 14))) [^] b6; (* 684 *)
  b0 += b3; (* 685 *)
  b3 <- ((b3 [<<] 42) [|] (b3 [>>] (64 - 42))) [^] b0; (* 686 *)
  b4 += b1; (* 687 *)
  b1 <- ((b1 [<<] 17) [|] (b1 [>>] (64 - 17))) [^] b4; (* 688 *)
  b6 += b3; (* 689 *)
  b3 <- ((b3 [<<] 49) [|] (b3 [>>] (64 - 49))) [^] b6; (* 690 *)
  b0 += b5; (* 691 *)
  b5 <- ((b5 [<<] 36) [|] (b5 [>>] (64 - 36))) [^] b0; (* 692 *)
  b2 += b7; (* 693 *)
  b7 <- ((b7 [<<] 39) [|] (b7 [>>] (64 - 39))) [^] b2; (* 694 *)
  b6 += b1; (* 695 *)
  b1 <- ((b1 [<<] 44) [|] (b1 [>>] (64 - 44))) [^] b6; (* 696 *)
  b0 += b7; (* 697 *)
  b7 <- ((b7 [<<] 9) [|] (b7 [>>] (64 - 9))) [^] b0; (* 698 *)
  b2 += b5; (* 699 *)
  b5 <- ((b5 [<<] 54) [|] (b5 [>>] (64 - 54))) [^] b2; (* 700 *)
  b4 += b3; (* 701 *)
  b3 <- ((b3 [<<] 56) [|] (b3 [>>] (64 - 56))) [^] b4; (* 702 *)
  b1 += k0; (* 703 *)
  b0 += b1 [+] k8; (* 704 *)
  b1 <- ((b1 [<<] 39) [|] (b1 [>>] (64 - 39))) [^] b0; (* 705 *)
  b3 += k2; (* 706 *)
  b2 += b3 [+] k1; (* 707 *)
  b3 <- ((b3 [<<] 30) [|] (b3 [>>] (64 - 30))) [^] b2; (* 708 *)
  b5 += k4 [+] t2; (* 709 *)
  b4 += b5 [+] k3; (* 710 *)
  b5 <- ((b5 [<<] 34) [|] (b5 [>>] (64 - 34))) [^] b4; (* 711 *)
  b7 += k6 [+] EC 17; (* 712 *)
  b6 += b7 [+] k5 [+] t0; (* 713 *)
  b7 <- ((b7 [<<] 24) [|] (b7 [>>] (64 - 24))) [^] b6; (* 714 *)
  b2 += b1; (* 715 *)
  b1 <- ((b1 [<<] 13) [|] (b1 [>>] (64 - 13))) [^] b2; (* 716 *)
  b4 += b7; (* 717 *)
  b7 <- ((b7 [<<] 50) [|] (b7 [>>] (64 - 50))) [^] b4; (* 718 *)
  b6 += b5; (* 719 *)
  b5 <- ((b5 [<<] 10) [|] (b5 [>>] (64 - 10))) [^] b6; (* 720 *)
  b0 += b3; (* 721 *)
  b3 <- ((b3 [<<] 17) [|] (b3 [>>] (64 - 17))) [^] b0; (* 722 *)
  b4 += b1; (* 723 *)
  b1 <- ((b1 [<<] 25) [|] (b1 [>>] (64 - 25))) [^] b4; (* 724 *)
  b6 += b3; (* 725 *)
  b3 <- ((b3 [<<] 29) [|] (b3 [>>] (64 - 29))) [^] b6; (* 726 *)
  b0 += b5; (* 727 *)
  b5 <- ((b5 [<<] 39) [|] (b5 [>>] (64 - 39))) [^] b0; (* 728 *)
  b2 += b7; (* 729 *)
  b7 <- ((b7 [<<] 43) [|] (b7 [>>] (64 - 43))) [^] b2; (* 730 *)
  b6 += b1; (* 731 *)
  b1 <- ((b1 [<<] 8) [|] (b1 [>>] (64 - 8))) [^] b6; (* 732 *)
  b0 += b7; (* 733 *)
  b7 <- ((b7 [<<] 35) [|] (b7 [>>] (64 - 35))) [^] b0; (* 734 *)
  b2 += b5; (* 735 *)
  b5 <- ((b5 [<<] 56) [|] (b5 [>>] (64 - 56))) [^] b2; (* 736 *)
  b4 += b3; (* 737 *)
  b3 <- ((b3 [<<] 22) [|] (b3 [>>] (64 - 22))) [^] b4; (* 738 *)
  (Out 0) <- b0 [+] k0; (* 740 *)
  (Out 1) <- b1 [+] k1; (* 741 *)
  (Out 2) <- b2 [+] k2; (* 742 *)
  (Out 3) <- b3 [+] k3; (* 743 *)
  (Out 4) <- b4 [+] k4; (* 744 *)
  (Out 5) <- b5 [+] k5 [+] t0; (* 745 *)
  (Out 6) <- b6 [+] k6 [+] t1; (* 746 *)
  (Out 7) <- b7 [+] k7 [+] EC 18 (* 747 *)
].

(** crypter/crypter512.go:750-1730, func (tf *threefish512) decrypt. *)
Definition decrypt512_body : list stmt := [
  b0 <- EV (In 0); (* 752 *)
  b1 <- EV (In 1); (* 753 *)
  b2 <- EV (In 2); (* 754 *)
  b3 <- EV (In 3); (* 755 *)
  b4 <- EV (In 4); (* 756 *)
  b5 <- EV (In 5); (* 757 *)
  b6 <- EV (In 6); (* 758 *)
  b7 <- EV (In 7); (* 759 *)
  k0 <- EV (XK 0); (* 761 *)
  k1 <- EV (XK 1); (* 762 *)
  k2 <- EV (XK 2); (* 763 *)
  k3 <- EV (XK 3); (* 764 *)
  k4 <- EV (XK 4); (* 765 *)
  k5 <- EV (XK 5); (* 766 *)
  k6 <- EV (XK 6); (* 767 *)
  k7 <- EV (XK 7); (* 768 *)
  k8 <- EV (XK 8); (* 769 *)
  t0 <- EV (XT 0); (* 771 *)
  t1 <- EV (XT 1); (* 772 *)
  t2 <- EV (XT 2); (* 773 *)
  b0 -= k0; (* 777 *)
  b1 -= k1; (* 778 *)
  b2 -= k2; (* 779 *)
  b3 -= k3; (* 780 *)
  b4 -= k4; (* 781 *)
  b5 -= k5 [+] t0; (* 782 *)
  b6 -= k6 [+] t1; (* 783 *)
  b7 -= k7 [+] EC 18; (* 784 *)
  tmp <- b3 [^] b4; (* 785 *)
  b3 <- (tmp [>>] 22) [|] (tmp [<<] (64 - 22)); (* 786 *)
  b4 -= b3; (* 787 *)
  tmp <- b5 [^] b2; (* 788 *)
  b5 <- (tmp [>>] 56) [|] (tmp [<<] (64 - 56)); (* 789 *)
  b2 -= b5; (* 790 *)
  tmp <- b7 [^] b0; (* 791 *)
  b7 <- (tmp [>>] 35) [|] (tmp [<<] (64 - 35)); (* 792 *)
  b0 -= b7; (* 793 *)
  tmp <- b1 [^] b6; (* 794 *)
  b1 <- (tmp [>>] 8) [|] (tmp [<<] (64 - 8)); (* 795 *)
  b6 -= b1; (* 796 *)
  tmp <- b7 [^] b2; (* 797 *)
  b7 <- (tmp [>>] 43) [|] (tmp [<<] (64 - 43)); (* 798 *)
  b2 -= b7; (* 799 *)
  tmp <- b5 [^] b0; (* 800 *)
  b5 <- (tmp [>>] 39) [|] (tmp [<<] (64 - 39)); (* 801 *)
  b0 -= b5; (* 802 *)
  tmp <- b3 [^] b6; (* 803 *)
  b3 <- (tmp [>>] 29) [|] (tmp [<<] (64 - 29)); (* 804 *)
  b6 -= b3; (* 805 *)
  tmp <- b1 [^] b4; (* 806 *)
  b1 <- (tmp [>>] 25) [|] (tmp [<<] (64 - 25)); (* 807 *)
  b4 -= b1; (* 808 *)
  tmp <- b3 [^] b0; (* 809 *)
  b3 <- (tmp [>>] 17) [|] (tmp [<<] (64 - 17)); (* 810 *)
  b0 -= b3; (* 811 *)
  tmp <- b5 [^] b6; (* 812 *)
  b5 <- (tmp [>>] 10) [|] (tmp [<<] (64 - 10)); (* 813 *)
  b6 -= b5; (* 814 *)
  tmp <- b7 [^] b4; (* 815 *)
  b7 <- (tmp [>>] 50) [|] (tmp [<<] (64 - 50)); (* 816 *)
  b4 -= b7; (* 817 *)
  tmp <- b1 [^] b2; (* 818 *)
  b1 <- (tmp [>>] 13) [|] (tmp [<<] (64 - 13)); (* 819 *)
  b2 -= b1; (* 820 *)
  tmp <- b7 [^] b6; (* 821 *)
  b7 <- (tmp [>>] 24) [|] (tmp [<<] (64 - 24)); (* 822 *)
  b6 -= b7 [+] k5 [+] t0; (* 823 *)
  b7 -= k6 [+] EC 17; (* 824 *)
  tmp <- b5 [^] b4; (* 825 *)
  b5 <- (tmp [>>] 34) [|] (tmp [<<] (64 - 34)); (* 826 *)
  b4 -= b5 [+] k3; (* 827 *)
  b5 -= k4 [+] t2; (* 828 *)
  tmp <- b3 [^] b2; (* 829 *)
  b3 <- (tmp [>>] 30) [|] (tmp [<<] (64 - 30)); (* 830 *)
  b2 -= b3 [+] k1; (* 831 *)
  b3 -= k2; (* 832 *)
  tmp <- b1 [^] b0; (* 833 *)
  b1 <- (tmp [>>] 39) [|] (tmp [<<] (64 - 39)); (* 834 *)
  b0 -= b1 [+] k8; (* 835 *)
  b1 -= k0; (* 836 *)
  tmp <- b3 [^] b4; (* 837 *)
  b3 <- (tmp [>>] 56) [|] (tmp [<<] (64 - 56)); (* 838 *)
  b4 -= b3; (* 839 *)
  tmp <- b5 [^] b2; (* 840 *)
  b5 <- (tmp [>>] 54) [|] (tmp [<<] (64 - 54)); (* 841 *)
  b2 -= b5; (* 842 *)
  tmp <- b7 [^] b0; (* 843 *)
  b7 <- (tmp [>>] 9) [|] (tmp [<<] (64 - 9)); (* 844 *)
  b0 -= b7; (* 845 *)
  tmp <- b1 [^] b6; (* 846 *)
  b1 <- (tmp [>>] 44) [|] (tmp [<<] (64 - 44)); (* 847 *)
  b6 -= b1; (* 848 *)
  tmp <- b7 [^] b2; (* 849 *)
  b7 <- (tmp [>>] 39) [|] (tmp [<<] (64 - 39)); (* 850 *)
  b2 -= b7; (* 851 *)
  tmp <- b5 [^] b0; (* 852 *)
  b5 <- (tmp [>>] 36) [|] (tmp [<<] (64 - 36)); (* 853 *)
  b0 -= b5; (* 854 *)
  tmp <- b3 [^] b6; (* 855 *)
  b3 <- (tmp [>>] 49) [|] (tmp [<<] (64 - 49)); (* 856 *)
  b6 -= b3; (* 857 *)
  tmp <- b1 [^] b4; (* 858 *)
  b1 <- (tmp [>>] 17) [|] (tmp [<<] (64 - 17)); (* 859 *)
  b4 -= b1; (* 860 *)
  tmp <- b3 [^] b0; (* 861 *)
  b3 <- (tmp [>>] 42) [|] (tmp [<<] (64 - 42)); (* 862 *)
  b0 -= b3; (* 863 *)
  tmp <- b5 [^] b6; (* 864 *)
  b5 <- (tmp [>>] 14) [|] (tmp [<<] (64 - 14)); (* 865 *)
  b6 -= b5; (* 866 *)
  tmp <- b7 [^] b4; (* 867 *)
  b7 <- (tmp [>>] 27) [|] (tmp [<<] (64 - 27)); (* 868 *)
  b4 -= b7; (* 869 *)
  tmp <- b1 [^] b2; (* 870 *)
  b1 <- (tmp [>>] 33) [|] (tmp [<<] (64 - 33)); (* 871 *)
  b2 -= b1; (* 872 *)
  tmp <- b7 [^] b6; (* 873 *)
  b7 <- (tmp [>>] 37) [|] (tmp [<<] (64 - 37)); (* 874 *)
  b6 -= b7 [+] k4 [+] t2; (* 875 *)
  b7 -= k5 [+] EC 16; (* 876 *)
  tmp <- b5 [^] b4; (* 877 *)
  b5 <- (tmp [>>] 19) [|] (tmp [<<] (64 - 19)); (* 878 *)
  b4 -= b5 [+] k2; (* 879 *)
  b5 -= k3 [+] t1; (* 880 *)
  tmp <- b3 [^] b2; (* 881 *)
  b3 <- (tmp [>>] 36) [|] (tmp [<<] (64 - 36)); (* 882 *)
  b2 -= b3 [+] k0; (* 883 *)
  b3 -= k1; (* 884 *)
  tmp <- b1 [^] b0; (* 885 *)
  b1 <- (tmp [>>] 46) [|] (tmp [<<] (64 - 46)); (* 886 *)
  b0 -= b1 [+] k7; (* 887 *)
  b1 -= k8; (* 888 *)
  tmp <- b3 [^] b4; (* 889 *)
  b3 <- (tmp [>>] 22) [|] (tmp [<<] (64 - 22)); (* 890 *)
  b4 -= b3; (* 891 *)
  tmp <- b5 [^] b2; (* 892 *)
  b5 <- (tmp [>>] 56) [|] (tmp [<<] (64 - 56)); (* 893 *)
  b2 -= b5; (* 894 *)
  tmp <- b7 [^] b0; (* 895 *)
  b7 <- (tmp [>>] 35) [|] (tmp [<<] (64 - 35)); (* 896 *)
  b0 -= b7; (* 897 *)
  tmp <- b1 [^] b6; (* 898 *)
  b1 <- (tmp [>>] 8) [|] (tmp [<<] (64 - 8)); (* 899 *)
  b6 -= b1; (* 900 *)
  tmp <- b7 [^] b2; (* 901 *)
  b7 <- (tmp [>>] 43) [|] (tmp [<<] (64 - 43)); (* 902 *)
  b2 -= b7; (* 903 *)
  tmp <- b5 [^] b0; (* 904 *)
  b5 <- (tmp [>>] 39) [|] (tmp [<<] (64 - 39)); (* 905 *)
  b0 -= b5; (* 906 *)
  tmp <- b3 [^] b6; (* 907 *)
  b3 <- (tmp [>>] 29) [|] (tmp [<<] (64 - 29)); (* 908 *)
  b6 -= b3; (* 909 *)
  tmp <- b1 [^] b4; (* 910 *)
  b1 <- (tmp [>>] 25) [|] (tmp [<<] (64 - 25)); (* 911 *)
  b4 -= b1; (* 912 *)
  tmp <- b3 [^] b0; (* 913 *)
  b3 <- (tmp [>>] 17) [|] (tmp [<<] (64 - 17)); (* 914 *)
  b0 -= b3; (* 915 *)
  tmp <- b5 [^] b6; (* 916 *)
  b5 <- (tmp [>>] 10) [|] (tmp [<<] (64 - 10)); (* 917 *)
  b6 -= b5; (* 918 *)
  tmp <- b7 [^] b4; (* 919 *)
  b7 <- (tmp [>>] 50) [|] (tmp [<<] (64 - 50)); (* 920 *)
  b4 -= b7; (* 921 *)
  tmp <- b1 [^] b2; (* 922 *)
  b1 <- (tmp [>>] 13) [|] (tmp [<<] (64 - 13)); (* 923 *)
  b2 -= b1; (* 924 *)
  tmp <- b7 [^] b6; (* 925 *)
  b7 <- (tmp [>>] 24) [|] (tmp [<<] (64 - 24)); (* 926 *)
  b6 -= b7 [+] k3 [+] t1; (* 927 *)
  b7 -= k4 [+] EC 15; (* 928 *)
  tmp <- b5 [^] b4; (* 929 *)
  b5 <- (tmp [>>] 34) [|] (tmp [<<] (64 - 34)); (* 930 *)
  b4 -= b5 [+] k1; (* 931 *)
  b5 -= k2 [+] t0; (* 932 *)
  tmp <- b3 [^] b2; (* 933 *)
  b3 <- (tmp [>>] 30) [|] (tmp [<<] (64 - 30)); (* 934 *)
  b2 -= b3 [+] k8; (* 935 *)
  b3 -= k0; (* 936 *)
  tmp <- b1 [^] b0; (* 937 *)
  b1 <- (tmp [>>] 39) [|] (tmp [<<] (64 - 39)); (* 938 *)
  b0 -= b1 [+] k6; (* 939 *)
  b1 -= k7; (* 940 *)
  tmp <- b3 [^] b4; (* 941 *)
  b3 <- (tmp [>>] 56) [|] (tmp [<<] (64 - 56)); (* 942 *)
  b4 -= b3; (* 943 *)
  tmp <- b5 [^] b2; (* 944 *)
  b5 <- (tmp [>>] 54) [|] (tmp [<<] (64 - 54)); (* 945 *)
  b2 -= b5; (* 946 *)
  tmp <- b7 [^] b0; (* 947 *)
  b7 <- (tmp [>>] 9) [|] (tmp [<<] (64 - 9)); (* 948 *)
  b0 -= b7; (* 949 *)
  tmp <- b1 [^] b6; (* 950 *)
  b1 <- (tmp [>>] 44) [|] (tmp [<<] (64 - 44)); (* 951 *)
  b6 -= b1; (* 952 *)
  tmp <- b7 [^] b2; (* 953 *)
  b7 <- (tmp [>>] 39) [|] (tmp [<<] (64 - 39)); (* 954 *)
  b2 -= b7; (* 955 *)
  tmp <- b5 [^] b0; (* 956 *)
  b5 <- (tmp [>>] 36) [|] (tmp [<<] (64 - 36)); (* 957 *)
  b0 -= b5; (* 958 *)
  tmp <- b3 [^] b6; (* 959 *)
  b3 <- (tmp [>>] 49) [|] (tmp [<<] (64 - 49)); (* 960 *)
  b6 -= b3; (* 961 *)
  tmp <- b1 [^] b4; (* 962 *)
  b1 <- (tmp [>>] 17) [|] (tmp [<<] (64 - 17)); (* 963 *)
  b4 -= b1; (* 964 *)
  tmp <- b3 [^] b0; (* 965 *)
  b3 <- (tmp [>>] 42) [|] (tmp [<<] (64 - 42)); (* 966 *)
  b0 -= b3; (* 967 *)
  tmp <- b5 [^] b6; (* 968 *)
  b5 <- (tmp [>>] 14) [|] (tmp [<<] (64 - 14)); (* 969 *)
  b6 -= b5; (* 970 *)
  tmp <- b7 [^] b4; (* 971 *)
  b7 <- (tmp [>>] 27) [|] (tmp [<<] (64 - 27)); (* 972 *)
  b4 -= b7; (* 973 *)
  tmp <- b1 [^] b2; (* 974 *)
  b1 <- (tmp [>>] 33) [|] (tmp [<<] (64 - 33)); (* 975 *)
  b2 -= b1; (* 976 *)
  tmp <- b7 [^] b6; (* 977 *)
  b7 <- (tmp [>>] 37) [|] (tmp [<<] (64 - 37)); (* 978 *)
  b6 -= b7 [+] k2 [+] t0; (* 979 *)
  b7 -= k3 [+] EC 14; (* 980 *)
  tmp <- b5 [^] b4; (* 981 *)
  b5 <- (tmp [>>] 19) [|] (tmp [<<] (64 - 19)); (* 982 *)
  b4 -= b5 [+] k0; (* 983 *)
  b5 -= k1 [+] t2; (* 984 *)
  tmp <- b3 [^] b2; (* 985 *)
  b3 <- (tmp [>>] 36) [|] (tmp [<<] (64 - 36)); (* 986 *)
  b2 -= b3 [+] k7; (* 987 *)
  b3 -= k8; (* 988 *)
  tmp <- b1 [^] b0; (* 989 *)
  b1 <- (tmp [>>] 46) [|] (tmp [<<] (64 - 46)); (* 990 *)
  b0 -= b1 [+] k5; (* 991 *)
  b1 -= k6; (* 992 *)
  tmp <- b3 [^] b4; (* 993 *)
  b3 <- (tmp [>>] 22) [|] (tmp [<<] (64 - 22)); (* 994 *)
  b4 -= b3; (* 995 *)
  tmp <- b5 [^] b2; (* 996 *)
  b5 <- (tmp [>>] 56) [|] (tmp [<<] (64 - 56)); (* 997 *)
  b2 -= b5; (* 998 *)
  tmp <- b7 [^] b0; (* 999 *)
  b7 <- (tmp [>>] 35) [|] (tmp [<<] (64 - 35)); (* 1000 *)
  b0 -= b7; (* 1001 *)
  tmp <- b1 [^] b6; (* 1002 *)
  b1 <- (tmp [>>] 8) [|] (tmp [<<] (64 - 8)); (* 1003 *)
  b6 -= b1; (* 1004 *)
  tmp <- b7 [^] b2; (* 1005 *)
  b7 <- (tmp [>>] 43) [|] (tmp [<<] (64 - 43)); (* 1006 *)
  b2 -= b7; (* 1007 *)
  tmp <- b5 [^] b0; (* 1008 *)
  b5 <- (tmp [>>] 39) [|] (tmp [<<] (64 - 39)); (* 1009 *)
  b0 -= b5; (* 1010 *)
  tmp <- b3 [^] b6; (* 1011 *)
  b3 <- (tmp [>>] 29) [|] (tmp [<<] (64 - 29)); (* 1012 *)
  b6 -= b3; (* 1013 *)
  tmp <- b1 [^] b4; (* 1014 *)
  b1 <- (tmp [>>] 25) [|] (tmp [<<] (64 - 25)); (* 1015 *)
  b4 -= b1; (* 1016 *)
  tmp <- b3 [^] b0; (* 1017 *)
  b3 <- (tmp [>>] 17) [|] (tmp [<<] (64 - 17)); (* 1018 *)
  b0 -= b3; (* 1019 *)
  tmp <- b5 [^] b6; (* 1020 *)
  b5 <- (tmp [>>] 10) [|] (tmp [<<] (64 - 10)); (* 1021 *)
  b6 -= b5; (* 1022 *)
  tmp <- b7 [^] b4; (* 1023 *)
  b7 <- (tmp [>>] 50) [|] (tmp [<<] (64 - 50)); (* 1024 *)
  b4 -= b7; (* 1025 *)
  tmp <- b1 [^] b2; (* 1026 *)
  b1 <- (tmp [>>] 13) [|] (tmp [<<] (64 - 13)); (* 1027 *)
  b2 -= b1; (* 1028 *)
  tmp <- b7 [^] b6; (* 1029 *)
  b7 <- (tmp [>>] 24) [|] (tmp [<<] (64 - 24)); (* 1030 *)
  b6 -= b7 [+] k1 [+] t2; (* 1031 *)
  b7 -= k2 [+] EC 13; (* 1032 *)
  tmp <- b5 [^] b4; (* 1033 *)
  b5 <- (tmp [>>] 34) [|] (tmp [<<] (64 - 34)); (* 1034 *)
  b4 -= b5 [+] k8; (* 1035 *)
  b5 -= k0 [+] t1; (* 1036 *)
  tmp <- b3 [^] b2; (* 1037 *)
  b3 <- (tmp [>>] 30) [|] (tmp [<<] (64 - 30)); (* 1038 *)
  b2 -= b3 [+] k6; (* 1039 *)
  b3 -= k7; (* 1040 *)
  tmp <- b1 [^] b0; (* 1041 *)
  b1 <- (tmp [>>] 39) [|] (tmp [<<] (64 - 39)); (* 1042 *)
  b0 -= b1 [+] k4; (* 1043 *)
  b1 -= k5; (* 1044 *)
  tmp <- b3 [^] b4; (* 1045 *)
  b3 <- (tmp [>>] 56) [|] (tmp [<<] (64 - 56)); (* 1046 *)
  b4 -= b3; (* 1047 *)
  tmp <- b5 [^] b2; (* 1048 *)
  b5 <- (tmp [>>] 54) [|] (tmp [<<] (64 - 54)); (* 1049 *)
  b2 -= b5; (* 1050 *)
  tmp <- b7 [^] b0; (* 1051 *)
  b7 <- (tmp [>>] 9) [|] (tmp [<<] (64 - 9)); (* 1052 *)
  b0 -= b7; (* 1053 *)
  tmp <- b1 [^] b6; (* 1054 *)
  b1 <- (tmp [>>] 44) [|] (tmp [<<] (64 - 44)); (* 1055 *)
  b6 -= b1; (* 1056 *)
  tmp <- b7 [^] b2; (* 1057 *)
  b7 <- (tmp [>>] 39) [|] (tmp [<<] (64 - 39)); (* 1058 *)
  b2 -= b7; (* 1059 *)
  tmp <- b5 [^] b0; (* 1060 *)
  b5 <- (tmp [>>] 36) [|] (tmp [<<] (64 - 36)); (* 1061 *)
  b0 -= b5; (* 1062 *)
  tmp <- b3 [^] b6; (* 1063 *)
  b3 <- (tmp [>>] 49) [|] (tmp [<<] (64 - 49)); (* 1064 *)
  b6 -= b3; (* 1065 *)
  tmp <- b1 [^] b4; (* 1066 *)
  b1 <- (tmp [>>] 17) [|] (tmp [<<] (64 - 17)); (* 1067 *)
  b4 -= b1; (* 1068 *)
  tmp <- b3 [^] b0; (* 1069 *)
  b3 <- (tmp [>>] 42) [|] (tmp [<<] (64 - 42)); (* 1070 *)
  b0 -= b3; (* 1071 *)
  tmp <- b5 [^] b6; (* 1072 *)
  b5 <- (tmp [>>] 14) [|] (tmp [<<] (64 - 14)); (* 1073 *)
  b6 -= b5; (* 1074 *)
  tmp <- b7 [^] b4; (* 1075 *)
  b7 <- (tmp [>>] 27) [|] (tmp [<<] (64 - 27)); (* 1076 *)
  b4 -= b7; (* 1077 *)
  tmp <- b1 [^] b2; (* 1078 *)
  b1 <- (tmp [>>] 33) [|] (tmp [<<] (64 - 33)); (* 1079 *)
  b2 -= b1; (* 1080 *)
  tmp <- b7 [^] b6; (* 1081 *)
  b7 <- (tmp [>>] 37) [|] (tmp [<<] (64 - 37)); (* 1082 *)
  b6 -= b7 [+] k0 [+] t1; (* 1083 *)
  b7 -= k1 [+] EC 12; (* 1084 *)
  tmp <- b5 [^] b4; (* 1085 *)
  b5 <- (tmp [>>] 19) [|] (tmp [<<] (64 - 19)); (* 1086 *)
  b4 -= b5 [+] k7; (* 1087 *)
  b5 -= k8 [+] t0; (* 1088 *)
  tmp <- b3 [^] b2; (* 1089 *)
  b3 <- (tmp [>>] 36) [|] (tmp [<<] (64 - 36)); (* 1090 *)
  b2 -= b3 [+] k5; (* 1091 *)
  b3 -= k6; (* 1092 *)
  tmp <- b1 [^] b0; (* 1093 *)
  b1 <- (tmp [>>] 46) [|] (tmp [<<] (64 - 46)); (* 1094 *)
  b0 -= b1 [+] k3; (* 1095 *)
  b1 -= k4; (* 1096 *)
  tmp <- b3 [^] b4; (* 1097 *)
  b3 <- (tmp [>>] 22) [|] (tmp [<<] (64 - 22)); (* 1098 *)
  b4 -= b3; (* 1099 *)
  tmp <- b5 [^] b2; (* 1100 *)
  b5 <- (tmp [>>] 56) [|] (tmp [<<] (64 - 56)); (* 1101 *)
  b2 -= b5; (* 1102 *)
  tmp <- b7 [^] b0; (* 1103 *)
  b7 <- (tmp [>>] 35) [|] (tmp [<<] (64 - 35)); (* 1104 *)
  b0 -= b7; (* 1105 *)
  tmp <- b1 [^] b6; (* 1106 *)
  b1 <- (tmp [>>] 8) [|] (tmp [<<] (64 - 8)); (* 1107 *)
  b6 -= b1; (* 1108 *)
  tmp <- b7 [^] b2; (* 1109 *)
  b7 <- (tmp [>>] 43) [|] (tmp [<<] (64 - 43)); (* 1110 *)
  b2 -= b7; (* 1111 *)
  tmp <- b5 [^] b0; (* 1112 *)
  b5 <- (tmp [>>] 39) [|] (tmp [<<] (64 - 39)); (* 1113 *)
  b0 -= b5; (* 1114 *)
  tmp <- b3 [^] b6; (* 1115 *)
  b3 <- (tmp [>>] 29) [|] (tmp [<<] (64 - 29)); (* 1116 *)
  b6 -= b3; (* 1117 *)
  tmp <- b1 [^] b4; (* 1118 *)
  b1 <- (tmp [>>] 25) [|] (tmp [<<] (64 - 25)); (* 1119 *)
  b4 -= b1; (* 1120 *)
  tmp <- b3 [^] b0; (* 1121 *)
  b3 <- (tmp [>>] 17) [|] (tmp [<<] (64 - 17)); (* 1122 *)
  b0 -= b3; (* 1123 *)
  tmp <- b5 [^] b6; (* 1124 *)
  b5 <- (tmp [>>] 10) [|] (tmp [<<] (64 - 10)); (* 1125 *)
  b6 -= b5; (* 1126 *)
  tmp <- b7 [^] b4; (* 1127 *)
  b7 <- (tmp [>>] 50) [|] (tmp [<<] (64 - 50)); (* 1128 *)
  b4 -= b7; (* 1129 *)
  tmp <- b1 [^] b2; (* 1130 *)
  b1 <- (tmp [>>] 13) [|] (tmp [<<] (64 - 13)); (* 1131 *)
  b2 -= b1; (* 1132 *)
  tmp <- b7 [^] b6; (* 1133 *)
  b7 <- (tmp [>>] 24) [|] (tmp [<<] (64 - 24)); (* 1134 *)
  b6 -= b7 [+] k8 [+] t0; (* 1135 *)
  b7 -= k0 [+] EC 11; (* 1136 *)
  tmp <- b5 [^] b4; (* 1137 *)
  b5 <- (tmp [>>] 34) [|] (tmp [<<] (64 - 34)); (* 1138 *)
  b4 -= b5 [+] k6; (* 1139 *)
  b5 -= k7 [+] t2; (* 1140 *)
  tmp <- b3 [^] b2; (* 1141 *)
  b3 <- (tmp [>>] 30) [|] (tmp [<<] (64 - 30)); (* 1142 *)
  b2 -= b3 [+] k4; (* 1143 *)
  b3 -= k5; (* 1144 *)
  tmp <- b1 [^] b0; (* 1145 *)
  b1 <- (tmp [>>] 39) [|] (tmp [<<] (64 - 39)); (* 1146 *)
  b0 -= b1 [+] k2; (* 1147 *)
  b1 -= k3; (* 1148 *)
  tmp <- b3 [^] b4; (* 1149 *)
  b3 <- (tmp [>>] 56) [|] (tmp [<<] (64 - 56)); (* 1150 *)
  b4 -= b3; (* 1151 *)
  tmp <- b5 [^] b2; (* 1152 *)
  b5 <- (tmp [>>] 54) [|] (tmp [<<] (64 - 54)); (* 1153 *)
  b2 -= b5; (* 1154 *)
  tmp <- b7 [^] b0; (* 1155 *)
  b7 <- (tmp [>>] 9) [|] (tmp [<<] (64 - 9)); (* 1156 *)
  b0 -= b7; (* 1157 *)
  tmp <- b1 [^] b6; (* 1158 *)
  b1 <- (tmp [>>] 44) [|] (tmp [<<] (64 - 44)); (* 1159 *)
  b6 -= b1; (* 1160 *)
  tmp <- b7 [^] b2; (* 1161 *)
  b7 <- (tmp [>>] 39) [|] (tmp [<<] (64 - 39)); (* 1162 *)
  b2 -= b7; (* 1163 *)
  tmp <- b5 [^] b0; (* 1164 *)
  b5 <- (tmp [>>] 36) [|] (tmp [<<] (64 - 36)); (* 1165 *)
  b0 -= b5; (* 1166 *)
  tmp <- b3 [^] b6; (* 1167 *)
  b3 <- (tmp [>>] 49) [|] (tmp [<<] (64 - 49)); (* 1168 *)
  b6 -= b3; (* 1169 *)
  tmp <- b1 [^] b4; (* 1170 *)
  b1 <- (tmp [>>] 17) [|] (tmp [<<] (64 - 17)); (* 1171 *)
  b4 -= b1; (* 1172 *)
  tmp <- b3 [^] b0; (* 1173 *)
  b3 <- (tmp [>>] 42) [|] (tmp [<<] (64 - 42)); (* 1174 *)
  b0 -= b3; (* 1175 *)
  tmp <- b5 [^] b6; (* 1176 *)
  b5 <- (tmp [>>] 14) [|] (tmp [<<] (64 - 14)); (* 1177 *)
  b6 -= b5; (* 1178 *)
  tmp <- b7 [^] b4; (* 1179 *)
  b7 <- (tmp [>>] 27) [|] (tmp [<<] (64 - 27)); (* 1180 *)
  b4 -= b7; (* 1181 *)
  tmp <- b1 [^] b2; (* 1182 *)
  b1 <- (tmp [>>] 33) [|] (tmp [<<] (64 - 33)); (* 1183 *)
  b2 -= b1; (* 1184 *)
  tmp <- b7 [^] b6; (* 1185 *)
  b7 <- (tmp [>>] 37) [|] (tmp [<<] (64 - 37)); (* 1186 *)
  b6 -= b7 [+] k7 [+] t2; (* 1187 *)
  b7 -= k8 [+] EC 10; (* 1188 *)
  tmp <- b5 [^] b4; (* 1189 *)
  b5 <- (tmp [>>] 19) [|] (tmp [<<] (64 - 19)); (* 1190 *)
  b4 -= b5 [+] k5; (* 1191 *)
  b5 -= k6 [+] t1; (* 1192 *)
  tmp <- b3 [^] b2; (* 1193 *)
  b3 <- (tmp [>>] 36) [|] (tmp [<<] (64 - 36)); (* 1194 *)
  b2 -= b3 [+] k3; (* 1195 *)
  b3 -= k4; (* 1196 *)
  tmp <- b1 [^] b0; (* 1197 *)
  b1 <- (tmp [>>] 46) [|] (tmp [<<] (64 - 46)); (* 1198 *)
  b0 -= b1 [+] k1; (* 1199 *)
  b1 -= k2; (* 1200 *)
  tmp <- b3 [^] b4; (* 1201 *)
  b3 <- (tmp [>>] 22) [|] (tmp [<<] (64 - 22)); (* 1202 *)
  b4 -= b3; (* 1203 *)
  tmp <- b5 [^] b2; (* 1204 *)
  b5 <- (tmp [>>] 56) [|] (tmp [<<] (64 - 56)); (* 1205 *)
  b2 -= b5; (* 1206 *)
  tmp <- b7 [^] b0; (* 1207 *)
  b7 <- (tmp [>>] 35) [|] (tmp [<<] (64 - 35)); (* 1208 *)
  b0 -= b7; (* 1209 *)
  tmp <- b1 [^] b6; (* 1210 *)
  b1 <- (tmp [>>] 8) [|] (tmp [<<] (64 - 8)); (* 1211 *)
  b6 -= b1; (* 1212 *)
  tmp <- b7 [^] b2; (* 1213 *)
  b7 <- (tmp [>>] 43) [|] (tmp [<<] (64 - 43)); (* 1214 *)
  b2 -= b7; (* 1215 *)
  tmp <- b5 [^] b0; (* 1216 *)
  b5 <- (tmp [>>] 39) [|] (tmp [<<] (64 - 39)); (* 1217 *)
  b0 -= b5; (* 1218 *)
  tmp <- b3 [^] b6; (* 1219 *)
  b3 <- (tmp [>>] 29) [|] (tmp [<<] (64 - 29)); (* 1220 *)
  b6 -= b3; (* 1221 *)
  tmp <- b1 [^] b4; (* 1222 *)
  b1 <- (tmp [>>] 25) [|] (tmp [<<] (64 - 25)); (* 1223 *)
  b4 -= b1; (* 1224 *)
  tmp <- b3 [^] b0; (* 1225 *)
  b3 <- (tmp [>>] 17) [|] (tmp [<<] (64 - 17)); (* 1226 *)
  b0 -= b3; (* 1227 *)
  tmp <- b5 [^] b6; (* 1228 *)
  b5 <- (tmp [>>] 10) [|] (tmp [<<] (64 - 10)); (* 1229 *)
  b6 -= b5; (* 1230 *)
  tmp <- b7 [^] b4; (* 1231 *)
  b7 <- (tmp [>>] 50) [|] (tmp [<<] (64 - 50)); (* 1232 *)
  b4 -= b7; (* 1233 *)
  tmp <- b1 [^] b2; (* 1234 *)
  b1 <- (tmp [>>] 13) [|] (tmp [<<] (64 - 13)); (* 1235 *)
  b2 -= b1; (* 1236 *)
  tmp <- b7 [^] b6; (* 1237 *)
  b7 <- (tmp [>>] 24) [|] (tmp [<<] (64 - 24)); (* 1238 *)
  b6 -= b7 [+] k6 [+] t1; (* 1239 *)
  b7 -= k7 [+] EC 9; (* 1240 *)
  tmp <- b5 [^] b4; (* 1241 *)
  b5 <- (tmp [>>] 34) [|] (tmp [<<] (64 - 34)); (* 1242 *)
  b4 -= b5 [+] k4; (* 1243 *)
  b5 -= k5 [+] t0; (* 1244 *)
  tmp <- b3 [^] b2; (* 1245 *)
  b3 <- (tmp [>>] 30) [|] (tmp [<<] (64 - 30)); (* 1246 *)
  b2 -= b3 [+] k2; (* 1247 *)
  b3 -= k3; (* 1248 *)
  tmp <- b1 [^] b0; (* 1249 *)
  b1 <- (tmp [>>] 39) [|] (tmp [<<] (64 - 39)); (* 1250 *)
  b0 -= b1 [+] k0; (* 1251 *)
  b1 -= k1; (* 1252 *)
  tmp <- b3 [^] b4; (* 1253 *)
  b3 <- (tmp [>>] 56) [|] (tmp [<<] (64 - 56)); (* 1254 *)
  b4 -= b3; (* 1255 *)
  tmp <- b5 [^] b2; (* 1256 *)
  b5 <- (tmp [>>] 54) [|] (tmp [<<] (64 - 54)); (* 1257 *)
  b2 -= b5; (* 1258 *)
  tmp <- b7 [^] b0; (* 1259 *)
  b7 <- (tmp [>>] 9) [|] (tmp [<<] (64 - 9)); (* 1260 *)
  b0 -= b7; (* 1261 *)
  tmp <- b1 [^] b6; (* 1262 *)
  b1 <- (tmp [>>] 44) [|] (tmp [<<] (64 - 44)); (* 1263 *)
  b6 -= b1; (* 1264 *)
  tmp <- b7 [^] b2; (* 1265 *)
  b7 <- (tmp [>>] 39) [|] (tmp [<<] (64 - 39)); (* 1266 *)
  b2 -= b7; (* 1267 *)
  tmp <- b5 [^] b0; (* 1268 *)
  b5 <- (tmp [>>] 36) [|] (tmp [<<] (64 - 36)); (* 1269 *)
  b0 -= b5; (* 1270 *)
  tmp <- b3 [^] b6; (* 1271 *)
  b3 <- (tmp [>>] 49) [|] (tmp [<<] (64 - 49)); (* 1272 *)
  b6 -= b3; (* 1273 *)
  tmp <- b1 [^] b4; (* 1274 *)
  b1 <- (tmp [>>] 17) [|] (tmp [<<] (64 - 17)); (* 1275 *)
  b4 -= b1; (* 1276 *)
  tmp <- b3 [^] b0; (* 1277 *)
  b3 <- (tmp [>>] 42) [|] (tmp [<<] (64 - 42)); (* 1278 *)
  b0 -= b3; (* 1279 *)
  tmp <- b5 [^] b6; (* 1280 *)
  b5 <- (tmp [>>] 14) [|] (tmp [<<] (64 - 14)); (* 1281 *)
  b6 -= b5; (* 1282 *)
  tmp <- b7 [^] b4; (* 1283 *)
  b7 <- (tmp [>>] 27) [|] (tmp [<<] (64 - 27)); (* 1284 *)
  b4 -= b7; (* 1285 *)
  tmp <- b1 [^] b2; (* 1286 *)
  b1 <- (tmp [>>] 33) [|] (tmp [<<] (64 - 33)); (* 1287 *)
  b2 -= b1; (* 1288 *)
  tmp <- b7 [^] b6; (* 1289 *)
  b7 <- (tmp [>>] 37) [|] (tmp [<<] (64 - 37)); (* 1290 *)
  b6 -= b7 [+] k5 [+] t0; (* 1291 *)
  b7 -= k6 [+] EC 8; (* 1292 *)
  tmp <- b5 [^] b4; (* 1293 *)
  b5 <- (tmp [>>] 19) [|] (tmp [<<] (64 - 19)); (* 1294 *)
  b4 -= b5 [+] k3; (* 1295 *)
  b5 -= k4 [+] t2; (* 1296 *)
  tmp <- b3 [^] b2; (* 1297 *)
  b3 <- (tmp [>>] 36) [|] (tmp [<<] (64 - 36)); (* 1298 *)
  b2 -= b3 [+] k1; (* 1299 *)
  b3 -= k2; (* 1300 *)
  tmp <- b1 [^] b0; (* 1301 *)
  b1 <- (tmp [>>] 46) [|] (tmp [<<] (64 - 46)); (* 1302 *)
  b0 -= b1 [+] k8; (* 1303 *)
  b1 -= k0; (* 1304 *)
  tmp <- b3 [^] b4; (* 1305 *)
  b3 <- (tmp [>>] 22) [|] (tmp [<<] (64 - 22)); (* 1306 *)
  b4 -= b3; (* 1307 *)
  tmp <- b5 [^] b2; (* 1308 *)
  b5 <- (tmp [>>] 56) [|] (tmp [<<] (64 - 56)); (* 1309 *)
  b2 -= b5; (* 1310 *)
  tmp <- b7 [^] b0; (* 1311 *)
  b7 <- (tmp [>>] 35) [|] (tmp [<<] (64 - 35)); (* 1312 *)
  b0 -= b7; (* 1313 *)
  tmp <- b1 [^] b6; (* 1314 *)
  b1 <- (tmp [>>] 8) [|] (tmp [<<] (64 - 8)); (* 1315 *)
  b6 -= b1; (* 1316 *)
  tmp <- b7 [^] b2; (* 1317 *)
  b7 <- (tmp [>>] 43) [|] (tmp [<<] (64 - 43)); (* 1318 *)
  b2 -= b7; (* 1319 *)
  tmp <- b5 [^] b0; (* 1320 *)
  b5 <- (tmp [>>] 39) [|] (tmp [<<] (64 - 39)); (* 1321 *)
  b0 -= b5; (* 1322 *)
  tmp <- b3 [^] b6; (* 1323 *)
  b3 <- (tmp [>>] 29) [|] (tmp [<<] (64 - 29)); (* 1324 *)
  b6 -= b3; (* 1325 *)
  tmp <- b1 [^] b4; (* 1326 *)
  b1 <- (tmp [>>] 25) [|] (tmp [<<] (64 - 25)); (* 1327 *)
  b4 -= b1; (* 1328 *)
  tmp <- b3 [^] b0; (* 1329 *)
  b3 <- (tmp [>>] 17) [|] (tmp [<<] (64 - 17)); (* 1330 *)
  b0 -= b3; (* 1331 *)
  tmp <- b5 [^] b6; (* 1332 *)
  b5 <- (tmp [>>] 10) [|] (tmp [<<] (64 - 10)); (* 1333 *)
  b6 -= b5; (* 1334 *)
  tmp <- b7 [^] b4; (* 1335 *)
  b7 <- (tmp [>>] 50) [|] (tmp [<<] (64 - 50)); (* 1336 *)
  b4 -= b7; (* 1337 *)
  tmp <- b1 [^] b2; (* 1338 *)
  b1 <- (tmp [>>] 13) [|] (tmp [<<] (64 - 13)); (* 1339 *)
  b2 -= b1; (* 1340 *)
  tmp <- b7 [^] b6; (* 1341 *)
  b7 <- (tmp [>>] 24) [|] (tmp [<<] (64 - 24)); (* 1342 *)
  b6 -= b7 [+] k4 [+] t2; (* 1343 *)
  b7 -= k5 [+] EC 7; (* 1344 *)
  tmp <- b5 [^] b4; (* 1345 *)
  b5 <- (tmp [>>] 34) [|] (tmp [<<] (64 - 34)); (* 1346 *)
  b4 -= b5 [+] k2; (* 1347 *)
  b5 -= k3 [+] t1; (* 1348 *)
  tmp <- b3 [^] b2; (* 1349 *)
  b3 <- (tmp [>>] 30) [|] (tmp [<<] (64 - 30)); (* 1350 *)
  b2 -= b3 [+] k0; (* 1351 *)
  b3 -= k1; (* 1352 *)
  tmp <- b1 [^] b0; (* 1353 *)
  b1 <- (tmp [>>] 39) [|] (tmp [<<] (64 - 39)); (* 1354 *)
  b0 -= b1 [+] k7; (* 1355 *)
  b1 -= k8; (* 1356 *)
  tmp <- b3 [^] b4; (* 1357 *)
  b3 <- (tmp [>>] 56) [|] (tmp [<<] (64 - 56)); (* 1358 *)
  b4 -= b3; (* 1359 *)
  tmp <- b5 [^] b2; (* 1360 *)
  b5 <- (tmp [>>] 54) [|] (tmp [<<] (64 - 54)); (* 1361 *)
  b2 -= b5; (* 1362 *)
  tmp <- b7 [^] b0; (* 1363 *)
  b7 <- (tmp [>>] 9) [|] (tmp [<<] (64 - 9)); (* 1364 *)
  b0 -= b7; (* 1365 *)
  tmp <- b1 [^] b6; (* 1366 *)
  b1 <- (tmp [>>] 44) [|] (tmp [<<] (64 - 44)); (* 1367 *)
  b6 -= b1; (* 1368 *)
  tmp <- b7 [^] b2; (* 1369 *)
  b7 <- (tmp [>>] 39) [|] (tmp [<<] (64 - 39)); (* 1370 *)
  b2 -= b7; (* 1371 *)
  tmp <- b5 [^] b0; (* 1372 *)
  b5 <- (tmp [>>] 36) [|] (tmp [<<] (64 - 36)); (* 1373 *)
  b0 -= b5; (* 1374 *)
  tmp <- b3 [^] b6; (* 1375 *)
  b3 <- (tmp [>>] 49) [|] (tmp [<<] (64 - 49)); (* 1376 *)
  b6 -= b3; (* 1377 *)
  tmp <- b1 [^] b4; (* 1378 *)
  b1 <- (tmp [>>] 17) [|] (tmp [<<] (64 - 17)); (* 1379 *)
  b4 -= b1; (* 1380 *)
  tmp <- b3 [^] b0; (* 1381 *)
  b3 <- (tmp [>>] 42) [|] (tmp [<<] (64 - 42)); (* 1382 *)
  b0 -= b3; (* 1383 *)
  tmp <- b5 [^] b6; (* 1384 *)
  b5 <- (tmp [>>] 14) [|] (tmp [<<] (64 - 14)); (* 1385 *)
  b6 -= b5; (* 1386 *)
  tmp <- b7 [^] b4; (* 1387 *)
  b7 <- (tmp [>>] 27) [|] (tmp [<<] (64 - 27)); (* 1388 *)
  b4 -= b7; (* 1389 *)
  tmp <- b1 [^] b2; (* 1390 *)
  b1 <- (tmp [>>] 33) [|] (tmp [<<] (64 - 33)); (* 1391 *)
  b2 -= b1; (* 1392 *)
  tmp <- b7 [^] b6; (* 1393 *)
  b7 <- (tmp [>>] 37) [|] (tmp [<<] (64 - 37)); (* 1394 *)
  b6 -= b7 [+] k3 [+] t1; (* 1395 *)
  b7 -= k4 [+] EC 6; (* 1396 *)
  tmp <- b5 [^] b4; (* 1397 *)
  b5 <- (tmp [>>] 19) [|] (tmp [<<] (64 - 19)); (* 1398 *)
  b4 -= b5 [+] k1; (* 1399 *)
  b5 -= k2 [+] t0; (* 1400 *)
  tmp <- b3 [^] b2; (* 1401 *)
  b3 <- (tmp [>>] 36) [|] (tmp [<<] (64 - 36)); (* 1402 *)
  b2 -= b3 [+] k8; (* 1403 *)
  b3 -= k0; (* 1404 *)
  tmp <- b1 [^] b0; (* 1405 *)
  b1 <- (tmp [>>] 46) [|] (tmp [<<] (64 - 46)); (* 1406 *)
  b0 -= b1 [+] k6; (* 1407 *)
  b1 -= k7; (* 1408 *)
  tmp <- b3 [^] b4; (* 1409 *)
  b3 <- (tmp [>>] 22) [|] (tmp [<<] (64 - 22)); (* 1410 *)
  b4 -= b3; (* 1411 *)
  tmp <- b5 [^] b2; (* 1412 *)
  b5 <- (tmp [>>] 56) [|] (tmp [<<] (64 - 56)); (* 1413 *)
  b2 -= b5; (* 1414 *)
  tmp <- b7 [^] b0; (* 1415 *)
  b7 <- (tmp [>>] 35) [|] (tmp [<<] (64 - 35)); (* 1416 *)
  b0 -= b7; (* 1417 *)
  tmp <- b1 [^] b6; (* 1418 *)
  b1 <- (tmp [>>] 8) [|] (tmp [<<] (64 - 8)); (* 1419 *)
  b6 -= b1; (* 1420 *)
  tmp <- b7 [^] b2; (* 1421 *)
  b7 <- (tmp [>>] 43) [|] (tmp [<<] (64 - 43)); (* 1422 *)
  b2 -= b7; (* 1423 *)
  tmp <- b5 [^] b0; (* 1424 *)
  b5 <- (tmp [>>] 39) [|] (tmp [<<] (64 - 39)); (* 1425 *)
  b0 -= b5; (* 1426 *)
  tmp <- b3 [^] b6; (* 1427 *)
  b3 <- (tmp [>>] 29) [|] (tmp [<<] (64 - 29)); (* 1428 *)
  b6 -= b3; (* 1429 *)
  tmp <- b1 [^] b4; (* 1430 *)
  b1 <- (tmp [>>] 25) [|] (tmp [<<] (64 - 25)); (* 1431 *)
  b4 -= b1; (* 1432 *)
  tmp <- b3 [^] b0; (* 1433 *)
  b3 <- (tmp [>>] 17) [|] (tmp [<<] (64 - 17)); (* 1434 *)
  b0 -= b3; (* 1435 *)
  tmp <- b5 [^] b6; (* 1436 *)
  b5 <- (tmp [>>] 10) [|] (tmp [<<] (64 - 10)); (* 1437 *)
  b6 -= b5; (* 1438 *)
  tmp <- b7 [^] b4; (* 1439 *)
  b7 <- (tmp [>>] 50) [|] (tmp [<<] (64 - 50)); (* 1440 *)
  b4 -= b7; (* 1441 *)
  tmp <- b1 [^] b2; (* 1442 *)
  b1 <- (tmp [>>] 13) [|] (tmp [<<] (64 - 13)); (* 1443 *)
  b2 -= b1; (* 1444 *)
  tmp <- b7 [^] b6; (* 1445 *)
  b7 <- (tmp [>>] 24) [|] (tmp [<<] (64 - 24)); (* 1446 *)
  b6 -= b7 [+] k2 [+] t0; (* 1447 *)
  b7 -= k3 [+] EC 5; (* 1448 *)
  tmp <- b5 [^] b4; (* 1449 *)
  b5 <- (tmp [>>] 34) [|] (tmp [<<] (64 - 34)); (* 1450 *)
  b4 -= b5 [+] k0; (* 1451 *)
  b5 -= k1 [+] t2; (* 1452 *)
  tmp <- b3 [^] b2; (* 1453 *)
  b3 <- (tmp [>>] 30) [|] (tmp [<<] (64 - 30)); (* 1454 *)
  b2 -= b3 [+] k7; (* 1455 *)
  b3 -= k8; (* 1456 *)
  tmp <- b1 [^] b0; (* 1457 *)
  b1 <- (tmp [>>] 39) [|] (tmp [<<] (64 - 39)); (* 1458 *)
  b0 -= b1 [+] k5; (* 1459 *)
  b1 -= k6; (* 1460 *)
  tmp <- b3 [^] b4; (* 1461 *)
  b3 <- (tmp [>>] 56) [|] (tmp [<<] (64 - 56)); (* 1462 *)
  b4 -= b3; (* 1463 *)
  tmp <- b5 [^] b2; (* 1464 *)
  b5 <- (tmp [>>] 54) [|] (tmp [<<] (64 - 54)); (* 1465 *)
  b2 -= b5; (* 1466 *)
  tmp <- b7 [^] b0; (* 1467 *)
  b7 <- (tmp [>>] 9) [|] (tmp [<<] (64 - 9)); (* 1468 *)
  b0 -= b7; (* 1469 *)
  tmp <- b1 [^] b6; (* 1470 *)
  b1 <- (tmp [>>] 44) [|] (tmp [<<] (64 - 44)); (* 1471 *)
  b6 -= b1; (* 1472 *)
  tmp <- b7 [^] b2; (* 1473 *)
  b7 <- (tmp [>>] 39) [|] (tmp [<<] (64 - 39)); (* 1474 *)
  b2 -= b7; (* 1475 *)
  tmp <- b5 [^] b0; (* 1476 *)
  b5 <- (tmp [>>] 36) [|] (tmp [<<] (64 - 36)); (* 1477 *)
  b0 -= b5; (* 1478 *)
  tmp <- b3 [^] b6; (* 1479 *)
  b3 <- (tmp [>>] 49) [|] (tmp [<<] (64 - 49)); (* 1480 *)
  b6 -= b3; (* 1481 *)
  tmp <- b1 [^] b4; (* 1482 *)
  b1 <- (tmp [>>] 17) [|] (tmp [<<] (64 - 17)); (* 1483 *)
  b4 -= b1; (* 1484 *)
  tmp <- b3 [^] b0; (* 1485 *)
  b3 <- (tmp [>>] 42) [|] (tmp [<<] (64 - 42)); (* 1486 *)
  b0 -= b3; (* 1487 *)
  tmp <- b5 [^] b6; (* 1488 *)
  b5 <- (tmp [>>] 14) [|] (tmp [<<] (64 - 14)); (* 1489 *)
  b6 -= b5; (* 1490 *)
  tmp <- b7 [^] b4; (* 1491 *)
  b7 <- (tmp [>>] 27) [|] (tmp [<<] (64 - 27)); (* 1492 *)
  b4 -= b7; (* 1493 *)
  tmp <- b1 [^] b2; (* 1494 *)
  b1 <- (tmp [>>] 33) [|] (tmp [<<] (64 - 33)); (* 1495 *)
  b2 -= b1; (* 1496 *)
  tmp <- b7 [^] b6; (* 1497 *)
  b7 <- (tmp [>>] 37) [|] (tmp [<<] (64 - 37)); (* 1498 *)
  b6 -= b7 [+] k1 [+] t2; (* 1499 *)
  b7 -= k2 [+] EC 4; (* 1500 *)
  tmp <- b5 [^] b4; (* 1501 *)
  b5 <- (tmp [>>] 19) [|] (tmp [<<] (64 - 19)); (* 1502 *)
  b4 -= b5 [+] k8; (* 1503 *)
  b5 -= k0 [+] t1; (* 1504 *)
  tmp <- b3 [^] b2; (* 1505 *)
  b3 <- (tmp [>>] 36) [|] (tmp [<<] (64 - 36)); (* 1506 *)
  b2 -= b3 [+] k6; (* 1507 *)
  b3 -= k7; (* 1508 *)
  tmp <- b1 [^] b0; (* 1509 *)
  b1 <- (tmp [>>] 46) [|] (tmp [<<] (64 - 46)); (* 1510 *)
  b0 -= b1 [+] k4; (* 1511 *)
  b1 -= k5; (* 1512 *)
  tmp <- b3 [^] b4; (* 1513 *)
  b3 <- (tmp [>>] 22) [|] (tmp [<<] (64 - 22)); (* 1514 *)
  b4 -= b3; (* 1515 *)
  tmp <- b5 [^] b2; (* 1516 *)
  b5 <- (tmp [>>] 56) [|] (tmp [<<] (64 - 56)); (* 1517 *)
  b2 -= b5; (* 1518 *)
  tmp <- b7 [^] b0; (* 1519 *)
  b7 <- (tmp [>>] 35) [|] (tmp [<<] (64 - 35)); (* 1520 *)
  b0 -= b7; (* 1521 *)
  tmp <- b1 [^] b6; (* 1522 *)
  b1 <- (tmp [>>] 8) [|] (tmp [<<] (64 - 8)); (* 1523 *)
  b6 -= b1; (* 1524 *)
  tmp <- b7 [^] b2; (* 1525 *)
  b7 <- (tmp [>>] 43) [|] (tmp [<<] (64 - 43)); (* 1526 *)
  b2 -= b7; (* 1527 *)
  tmp <- b5 [^] b0; (* 1528 *)
  b5 <- (tmp [>>] 39) [|] (tmp [<<] (64 - 39)); (* 1529 *)
  b0 -= b5; (* 1530 *)
  tmp <- b3 [^] b6; (* 1531 *)
  b3 <- (tmp [>>] 29) [|] (tmp [<<] (64 - 29)); (* 1532 *)
  b6 -= b3; (* 1533 *)
  tmp <- b1 [^] b4; (* 1534 *)
  b1 <- (tmp [>>] 25) [|] (tmp [<<] (64 - 25)); (* 1535 *)
  b4 -= b1; (* 1536 *)
  tmp <- b3 [^] b0; (* 1537 *)
  b3 <- (tmp [>>] 17) [|] (tmp [<<] (64 - 17)); (* 1538 *)
  b0 -= b3; (* 1539 *)
  tmp <- b5 [^] b6; (* 1540 *)
  b5 <- (tmp [>>] 10) [|] (tmp [<<] (64 - 10)); (* 1541 *)
  b6 -= b5; (* 1542 *)
  tmp <- b7 [^] b4; (* 1543 *)
  b7 <- (tmp [>>] 50) [|] (tmp [<<] (64 - 50)); (* 1544 *)
  b4 -= b7; (* 1545 *)
  tmp <- b1 [^] b2; (* 1546 *)
  b1 <- (tmp [>>] 13) [|] (tmp [<<] (64 - 13)); (* 1547 *)
  b2 -= b1; (* 1548 *)
  tmp <- b7 [^] b6; (* 1549 *)
  b7 <- (tmp [>>] 24) [|] (tmp [<<] (64 - 24)); (* 1550 *)
  b6 -= b7 [+] k0 [+] t1; (* 1551 *)
  b7 -= k1 [+] EC 3; (* 1552 *)
  tmp <- b5 [^] b4; (* 1553 *)
  b5 <- (tmp [>>] 34) [|] (tmp [<<] (64 - 34)); (* 1554 *)
  b4 -= b5 [+] k7; (* 1555 *)
  b5 -= k8 [+] t0; (* 1556 *)
  tmp <- b3 [^] b2; (* 1557 *)
  b3 <- (tmp [>>] 30) [|] (tmp [<<] (64 - 30)); (* 1558 *)
  b2 -= b3 [+] k5; (* 1559 *)
  b3 -= k6; (* 1560 *)
  tmp <- b1 [^] b0; (* 1561 *)
  b1 <- (tmp [>>] 39) [|] (tmp [<<] (64 - 39)); (* 1562 *)
  b0 -= b1 [+] k3; (* 1563 *)
  b1 -= k4; (* 1564 *)
  tmp <- b3 [^] b4; (* 1565 *)
  b3 <- (tmp [>>] 56) [|] (tmp [<<] (64 - 56)); (* 1566 *)
  b4 -= b3; (* 1567 *)
  tmp <- b5 [^] b2; (* 1568 *)
  b5 <- (tmp [>>] 54) [|] (tmp [<<] (64 - 54)); (* 1569 *)
  b2 -= b5; (* 1570 *)
  tmp <- b7 [^] b0; (* 1571 *)
  b7 <- (tmp [>>] 9) [|] (tmp [<<] (64 - 9)); (* 1572 *)
  b0 -= b7; (* 1573 *)
  tmp <- b1 [^] b6; (* 1574 *)
  b1 <- (tmp [>>] 44) [|] (tmp [<<] (64 - 44)); (* 1575 *)
  b6 -= b1; (* 1576 *)
  tmp <- b7 [^] b2; (* 1577 *)
  b7 <- (tmp [>>] 39) [|] (tmp [<<] (64 - 39)); (* 1578 *)
  b2 -= b7; (* 1579 *)
  tmp <- b5 [^] b0; (* 1580 *)
  b5 <- (tmp [>>] 36) [|] (tmp [<<] (64 - 36)); (* 1581 *)
  b0 -= b5; (* 1582 *)
  tmp <- b3 [^] b6; (* 1583 *)
  b3 <- (tmp [>>] 49) [|] (tmp [<<] (64 - 49)); (* 1584 *)
  b6 -= b3; (* 1585 *)
  tmp <- b1 [^] b4; (* 1586 *)
  b1 <- (tmp [>>] 17) [|] (tmp [<<] (64 - 17)); (* 1587 *)
  b4 -= b1; (* 1588 *)
  tmp <- b3 [^] b0; (* 1589 *)
  b3 <- (tmp [>>] 42) [|] (tmp [<<] (64 - 42)); (* 1590 *)
  b0 -= b3; (* 1591 *)
  tmp <- b5 [^] b6; (* 1592 *)
  b5 <- (tmp [>>] 14) [|] (tmp [<<] (64 - 14)); (* 1593 *)
  b6 -= b5; (* 1594 *)
  tmp <- b7 [^] b4; (* 1595 *)
  b7 <- (tmp [>>] 27) [|] (tmp [<<] (64 - 27)); (* 1596 *)
  b4 -= b7; (* 1597 *)
  tmp <- b1 [^] b2; (* 1598 *)
  b1 <- (tmp [>>] 33) [|] (tmp [<<] (64 - 33)); (* 1599 *)
  b2 -= b1; (* 1600 *)
  tmp <- b7 [^] b6; (* 1601 *)
  b7 <- (tmp [>>] 37) [|] (tmp [<<] (64 - 37)); (* 1602 *)
  b6 -= b7 [+] k8 [+] t0; (* 1603 *)
  b7 -= k0 [+] EC 2; (* 1604 *)
  tmp <- b5 [^] b4; (* 1605 *)
  b5 <- (tmp [>>] 19) [|] (tmp [<<] (64 - 19)); (* 1606 *)
  b4 -= b5 [+] k6; (* 1607 *)
  b5 -= k7 [+] t2; (* 1608 *)
  tmp <- b3 [^] b2; (* 1609 *)
  b3 <- (tmp [>>] 36) [|] (tmp [<<] (64 - 36)); (* 1610 *)
  b2 -= b3 [+] k4; (* 1611 *)
  b3 -= k5; (* 1612 *)
  tmp <- b1 [^] b0; (* 1613 *)
  b1 <- (tmp [>>] 46) [|] (tmp [<<] (64 - 46)); (* 1614 *)
  b0 -= b1 [+] k2; (* 1615 *)
  b1 -= k3; (* 1616 *)
  tmp <- b3 [^] b4; (* 1617 *)
  b3 <- (tmp [>>] 22) [|] (tmp [<<] (64 - 22)); (* 1618 *)
  b4 -= b3; (* 1619 *)
  tmp <- b5 [^] b2; (* 1620 *)
  b5 <- (tmp [>>] 56) [|] (tmp [<<] (64 - 56)); (* 1621 *)
  b2 -= b5; (* 1622 *)
  tmp <- b7 [^] b0; (* 1623 *)
  b7 <- (tmp [>>] 35) [|] (tmp [<<] (64 - 35)); (* 1624 *)
  b0 -= b7; (* 1625 *)
  tmp <- b1 [^] b6; (* 1626 *)
  b1 <- (tmp [>>] 8) [|] (tmp [<<] (64 - 8)); (* 1627 *)
  b6 -= b1; (* 1628 *)
  tmp <- b7 [^] b2; (* 1629 *)
  b7 <- (tmp [>>] 43) [|] (tmp [<<] (64 - 43)); (* 1630 *)
  b2 -= b7; (* 1631 *)
  tmp <- b5 [^] b0; (* 1632 *)
  b5 <- (tmp [>>] 39) [|] (tmp [<<] (64 - 39)); (* 1633 *)
  b0 -= b5; (* 1634 *)
  tmp <- b3 [^] b6; (* 1635 *)
  b3 <- (tmp [>>] 29) [|] (tmp [<<] (64 - 29)); (* 1636 *)
  b6 -= b3; (* 1637 *)
  tmp <- b1 [^] b4; (* 1638 *)
  b1 <- (tmp [>>] 25) [|] (tmp [<<] (64 - 25)); (* 1639 *)
  b4 -= b1; (* 1640 *)
  tmp <- b3 [^] b0; (* 1641 *)
  b3 <- (tmp [>>] 17) [|] (tmp [<<] (64 - 17)); (* 1642 *)
  b0 -= b3; (* 1643 *)
  tmp <- b5 [^] b6; (* 1644 *)
  b5 <- (tmp [>>] 10) [|] (tmp [<<] (64 - 10)); (* 1645 *)
  b6 -= b5; (* 1646 *)
  tmp <- b7 [^] b4; (* 1647 *)
  b7 <- (tmp [>>] 50) [|] (tmp [<<] (64 - 50)); (* 1648 *)
  b4 -= b7; (* 1649 *)
  tmp <- b1 [^] b2; (* 1650 *)
  b1 <- (tmp [>>] 13) [|] (tmp [<<] (64 - 13)); (* 1651 *)
  b2 -= b1; (* 1652 *)
  tmp <- b7 [^] b6; (* 1653 *)
  b7 <- (tmp [>>] 24) [|] (tmp [<<] (64 - 24)); (* 1654 *)
  b6 -= b7 [+] k7 [+] t2; (* 1655 *)
  b7 -= k8 [+] EC 1; (* 1656 *)
  tmp <- b5 [^] b4; (* 1657 *)
  b5 <- (tmp [>>] 34) [|] (tmp [<<] (64 - 34)); (* 1658 *)
  b4 -= b5 [+] k5; (* 1659 *)
  b5 -= k6 [+] t1; (* 1660 *)
  tmp <- b3 [^] b2; (* 1661 *)
  b3 <- (tmp [>>] 30) [|] (tmp [<<] (64 - 30)); (* 1662 *)
  b2 -= b3 [+] k3; (* 1663 *)
  b3 -= k4; (* 1664 *)
  tmp <- b1 [^] b0; (* 1665 *)
  b1 <- (tmp [>>] 39) [|] (tmp [<<] (64 - 39)); (* 1666 *)
  b0 -= b1 [+] k1; (* 1667 *)
  b1 -= k2; (* 1668 *)
  tmp <- b3 [^] b4; (* 1669 *)
  b3 <- (tmp [>>] 56) [|] (tmp [<<] (64 - 56)); (* 1670 *)
  b4 -= b3; (* 1671 *)
  tmp <- b5 [^] b2; (* 1672 *)
  b5 <- (tmp [>>] 54) [|] (tmp [<<] (64 - 54)); (* 1673 *)
  b2 -= b5; (* 1674 *)
  tmp <- b7 [^] b0; (* 1675 *)
  b7 <- (tmp [>>] 9) [|] (tmp [<<] (64 - 9)); (* 1676 *)
  b0 -= b7; (* 1677 *)
  tmp <- b1 [^] b6; (* 1678 *)
  b1 <- (tmp [>>] 44) [|] (tmp [<<] (64 - 44)); (* 1679 *)
  b6 -= b1; (* 1680 *)
  tmp <- b7 [^] b2; (* 1681 *)
  b7 <- (tmp [>>] 39) [|] (tmp [<<] (64 - 39)); (* 1682 *)
  b2 -= b7; (* 1683 *)
  tmp <- b5 [^] b0; (* 1684 *)
  b5 <- (tmp [>>] 36) [|] (tmp [<<] (64 - 36)); (* 1685 *)
  b0 -= b5; (* 1686 *)
  tmp <- b3 [^] b6; (* 1687 *)
  b3 <- (tmp [>>] 49) [|] (tmp [<<] (64 - 49)); (* 1688 *)
  b6 -= b3; (* 1689 *)
  tmp <- b1 [^] b4; (* 1690 *)
  b1 <- (tmp [>>] 17) [|] (tmp [<<] (64 - 17)); (* 1691 *)
  b4 -= b1; (* 1692 *)
  tmp <- b3 [^] b0; (* 1693 *)
  b3 <- (tmp [>>] 42) [|] (tmp [<<] (64 - 42)); (* 1694 *)
  b0 -= b3; (* 1695 *)
  tmp <- b5 [^] b6; (* 1696 *)
  b5 <- (tmp [>>] 14) [|] (tmp [<<] (64 - 14)); (* 1697 *)
  b6 -= b5; (* 1698 *)
  tmp <- b7 [^] b4; (* 1699 *)
  b7 <- (tmp [>>] 27) [|] (tmp [<<] (64 - 27)); (* 1700 *)
  b4 -= b7; (* 1701 *)
  tmp <- b1 [^] b2; (* 1702 *)
  b1 <- (tmp [>>] 33) [|] (tmp [<<] (64 - 33)); (* 1703 *)
  b2 -= b1; (* 1704 *)
  tmp <- b7 [^] b6; (* 1705 *)
  b7 <- (tmp [>>] 37) [|] (tmp [<<] (64 - 37)); (* 1706 *)
  b6 -= b7 [+] k6 [+] t1; (* 1707 *)
  b7 -= k7; (* 1708 *)
  tmp <- b5 [^] b4; (* 1709 *)
  b5 <- (tmp [>>] 19) [|] (tmp [<<] (64 - 19)); (* 1710 *)
  b4 -= b5 [+] k4; (* 1711 *)
  b5 -= k5 [+] t0; (* 1712 *)
  tmp <- b3 [^] b2; (* 1713 *)
  b3 <- (tmp [>>] 36) [|] (tmp [<<] (64 - 36)); (* 1714 *)
  b2 -= b3 [+] k2; (* 1715 *)
  b3 -= k3; (* 1716 *)
  tmp <- b1 [^] b0; (* 1717 *)
  b1 <- (tmp [>>] 46) [|] (tmp [<<] (64 - 46)); (* 1718 *)
  b0 -= b1 [+] k0; (* 1719 *)
  b1 -= k1; (* 1720 *)
  (Out 7) <- b7; (* 1722 *)
  (Out 6) <- b6; (* 1723 *)
  (Out 5) <- b5; (* 1724 *)
  (Out 4) <- b4; (* 1725 *)
  (Out 3) <- b3; (* 1726 *)
  (Out 2) <- b2; (* 1727 *)
  (Out 1) <- b1; (* 1728 *)
  (Out 0) <- b0 (* 1729 *)
].

