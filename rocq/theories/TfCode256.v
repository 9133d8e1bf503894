(** Generated by tools/gen_tf.py from crypter/crypter256.go: one item per Go statement,
    in order; the trailing comment is the Go line number.  Do not edit. *)
From Coq Require Import ZArith List.
From Verif Require Import TfLang.
Import ListNotations.
Open Scope Z_scope.

Local Notation b0 := (B 0). Local Notation b1 := (B 1). Local Notation b2 := (B 2). Local Notation b3 := (B 3).
Local Notation k0 := (K 0). Local Notation k1 := (K 1). Local Notation k2 := (K 2). Local Notation k3 := (K 3). Local Notation k4 := (K 4).
Local Notation t0 := (T 0). Local Notation t1 := (T 1). Local Notation t2 := (T 2).
Local Notation tmp := Tmp.
Local Open Scope tf_scope.

(** crypter/crypter256.go:66-413, func (tf *threefish256) encrypt. *)
Definition encrypt256_body : list stmt := [
  b0 <- EV (In 0); (* 68 *)
  b1 <- EV (In 1); (* 69 *)
  b2 <- EV (In 2); (* 70 *)
  b3 <- EV (In 3); (* 71 *)
  k0 <- EV (XK 0); (* 73 *)
  k1 <- EV (XK 1); (* 74 *)
  k2 <- EV (XK 2); (* 75 *)
  k3 <- EV (XK 3); (* 76 *)
  k4 <- EV (XK 4); (* 77 *)
  t0 <- EV (XT 0); (* 79 *)
  t1 <- EV (XT 1); (* 80 *)
  t2 <- EV (XT 2); (* 81 *)
  b1 += k1 [+] t0; (* 83 *)
  b0 += b1 [+] k0; (* 84 *)
  b1 <- ((b1 [<<] 14) [|] (b1 [>>] (64 - 14))) [^] b0; (* 85 *)
  b3 += k3; (* 86 *)
  b2 += b3 [+] k2 [+] t1; (* 87 *)
  b3 <- ((b3 [<<] 16) [|] (b3 [>>] (64 - 16))) [^] b2; (* 88 *)
  b0 += b3; (* 89 *)
  b3 <- ((b3 [<<] 52) [|] (b3 [>>] (64 - 52))) [^] b0; (* 90 *)
  b2 += b1; (* 91 *)
  b1 <- ((b1 [<<] 57) [|] (b1 [>>] (64 - 57))) [^] b2; (* 92 *)
  b0 += b1; (* 93 *)
  b1 <- ((b1 [<<] 23) [|] (b1 [>>] (64 - 23))) [^] b0; (* 94 *)
  b2 += b3; (* 95 *)
  b3 <- ((b3 [<<] 40) [|] (b3 [>>] (64 - 40))) [^] b2; (* 96 *)
  b0 += b3; (* 97 *)
  b3 <- ((b3 [<<] 5) [|] (b3 [>>] (64 - 5))) [^] b0; (* 98 *)
  b2 += b1; (* 99 *)
  b1 <- ((b1 [<<] 37) [|] (b1 [>>] (64 - 37))) [^] b2; (* 100 *)
  b1 += k2 [+] t1; (* 101 *)
  b0 += b1 [+] k1; (* 102 *)
  b1 <- ((b1 [<<] 25) [|] (b1 [>>] (64 - 25))) [^] b0; (* 103 *)
  b3 += k4 [+] EC 1; (* 104 *)
  b2 += b3 [+] k3 [+] t2; (* 105 *)
  b3 <- ((b3 [<<] 33) [|] (b3 [>>] (64 - 33))) [^] b2; (* 106 *)
  b0 += b3; (* 107 *)
  b3 <- ((b3 [<<] 46) [|] (b3 [>>] (64 - 46))) [^] b0; (* 108 *)
  b2 += b1; (* 109 *)
  b1 <- ((b1 [<<] 12) [|] (b1 [>>] (64 - 12))) [^] b2; (* 110 *)
  b0 += b1; (* 111 *)
  b1 <- ((b1 [<<] 58) [|] (b1 [>>] (64 - 58))) [^] b0; (* 112 *)
  b2 += b3; (* 113 *)
  b3 <- ((b3 [<<] 22) [|] (b3 [>>] (64 - 22))) [^] b2; (* 114 *)
  b0 += b3; (* 115 *)
  b3 <- ((b3 [<<] 32) [|] (b3 [>>] (64 - 32))) [^] b0; (* 116 *)
  b2 += b1; (* 117 *)
  b1 <- ((b1 [<<] 32) [|] (b1 [>>] (64 - 32))) [^] b2; (* 118 *)
  b1 += k3 [+] t2; (* 119 *)
  b0 += b1 [+] k2; (* 120 *)
  b1 <- ((b1 [<<] 14) [|] (b1 [>>] (64 - 14))) [^] b0; (* 121 *)
  b3 += k0 [+] EC 2; (* 122 *)
  b2 += b3 [+] k4 [+] t0; (* 123 *)
  b3 <- ((b3 [<<] 16) [|] (b3 [>>] (64 - 16))) [^] b2; (* 124 *)
  b0 += b3; (* 125 *)
  b3 <- ((b3 [<<] 52) [|] (b3 [>>] (64 - 52))) [^] b0; (* 126 *)
  b2 += b1; (* 127 *)
  b1 <- ((b1 [<<] 57) [|] (b1 [>>] (64 - 57))) [^] b2; (* 128 *)
  b0 += b1; (* 129 *)
  b1 <- ((b1 [<<] 23) [|] (b1 [>>] (64 - 23))) [^] b0; (* 130 *)
  b2 += b3; (* 131 *)
  b3 <- ((b3 [<<] 40) [|] (b3 [>>] (64 - 40))) [^] b2; (* 132 *)
  b0 += b3; (* 133 *)
  b3 <- ((b3 [<<] 5) [|] (b3 [>>] (64 - 5))) [^] b0; (* 134 *)
  b2 += b1; (* 135 *)
  b1 <- ((b1 [<<] 37) [|] (b1 [>>] (64 - 37))) [^] b2; (* 136 *)
  b1 += k4 [+] t0; (* 137 *)
  b0 += b1 [+] k3; (* 138 *)
  b1 <- ((b1 [<<] 25) [|] (b1 [>>] (64 - 25))) [^] b0; (* 139 *)
  b3 += k1 [+] EC 3; (* 140 *)
  b2 += b3 [+] k0 [+] t1; (* 141 *)
  b3 <- ((b3 [<<] 33) [|] (b3 [>>] (64 - 33))) [^] b2; (* 142 *)
  b0 += b3; (* 143 *)
  b3 <- ((b3 [<<] 46) [|] (b3 [>>] (64 - 46))) [^] b0; (* 144 *)
  b2 += b1; (* 145 *)
  b1 <- ((b1 [<<] 12) [|] (b1 [>>] (64 - 12))) [^] b2; (* 146 *)
  b0 += b1; (* 147 *)
  b1 <- ((b1 [<<] 58) [|] (b1 [>>] (64 - 58))) [^] b0; (* 148 *)
  b2 += b3; (* 149 *)
  b3 <- ((b3 [<<] 22) [|] (b3 [>>] (64 - 22))) [^] b2; (* 150 *)
  b0 += b3; (* 151 *)
  b3 <- ((b3 [<<] 32) [|] (b3 [>>] (64 - 32))) [^] b0; (* 152 *)
  b2 += b1; (* 153 *)
  b1 <- ((b1 [<<] 32) [|] (b1 [>>] (64 - 32))) [^] b2; (* 154 *)
  b1 += k0 [+] t1; (* 155 *)
  b0 += b1 [+] k4; (* 156 *)
  b1 <- ((b1 [<<] 14) [|] (b1 [>>] (64 - 14))) [^] b0; (* 157 *)
  b3 += k2 [+] EC 4; (* 158 *)
  b2 += b3 [+] k1 [+] t2; (* 159 *)
  b3 <- ((b3 [<<] 16) [|] (b3 [>>] (64 - 16))) [^] b2; (* 160 *)
  b0 += b3; (* 161 *)
  b3 <- ((b3 [<<] 52) [|] (b3 [>>] (64 - 52))) [^] b0; (* 162 *)
  b2 += b1; (* 163 *)
  b1 <- ((b1 [<<] 57) [|] (b1 [>>] (64 - 57))) [^] b2; (* 164 *)
  b0 += b1; (* 165 *)
  b1 <- ((b1 [<<] 23) [|] (b1 [>>] (64 - 23))) [^] b0; (* 166 *)
  b2 += b3; (* 167 *)
  b3 <- ((b3 [<<] 40) [|] (b3 [>>] (64 - 40))) [^] b2; (* 168 *)
  b0 += b3; (* 169 *)
  b3 <- ((b3 [<<] 5) [|] (b3 [>>] (64 - 5))) [^] b0; (* 170 *)
  b2 += b1; (* 171 *)
  b1 <- ((b1 [<<] 37) [|] (b1 [>>] (64 - 37))) [^] b2; (* 172 *)
  b1 += k1 [+] t2; (* 173 *)
  b0 += b1 [+] k0; (* 174 *)
  b1 <- ((b1 [<<] 25) [|] (b1 [>>] (64 - 25))) [^] b0; (* 175 *)
  b3 += k3 [+] EC 5; (* 176 *)
  b2 += b3 [+] k2 [+] t0; (* 177 *)
  b3 <- ((b3 [<<] 33) [|] (b3 [>>] (64 - 33))) [^] b2; (* 178 *)
  b0 += b3; (* 179 *)
  b3 <- ((b3 [<<] 46) [|] (b3 [>>] (64 - 46))) [^] b0; (* 180 *)
  b2 += b1; (* 181 *)
  b1 <- ((b1 [<<] 12) [|] (b1 [>>] (64 - 12))) [^] b2; (* 182 *)
  b0 += b1; (* 183 *)
  b1 <- ((b1 [<<] 58) [|] (b1 [>>] (64 - 58))) [^] b0; (* 184 *)
  b2 += b3; (* 185 *)
  b3 <- ((b3 [<<] 22) [|] (b3 [>>] (64 - 22))) [^] b2; (* 186 *)
  b0 += b3; (* 187 *)
  b3 <- ((b3 [<<] 32) [|] (b3 [>>] (64 - 32))) [^] b0; (* 188 *)
  b2 += b1; (* 189 *)
  b1 <- ((b1 [<<] 32) [|] (b1 [>>] (64 - 32))) [^] b2; (* 190 *)
  b1 += k2 [+] t0; (* 191 *)
  b0 += b1 [+] k1; (* 192 *)
  b1 <- ((b1 [<<] 14) [|] (b1 [>>] (64 - 14))) [^] b0; (* 193 *)
  b3 += k4 [+] EC 6; (* 194 *)
  b2 += b3 [+] k3 [+] t1; (* 195 *)
  b3 <- ((b3 [<<] 16) [|] (b3 [>>] (64 - 16))) [^] b2; (* 196 *)
  b0 += b3; (* 197 *)
  b3 <- ((b3 [<<] 52) [|] (b3 [>>] (64 - 52))) [^] b0; (* 198 *)
  b2 += b1; (* 199 *)
  b1 <- ((b1 [<<] 57) [|] (b1 [>>] (64 - 57))) [^] b2; (* 200 *)
  b0 += b1; (* 201 *)
  b1 <- ((b1 [<<] 23) [|] (b1 [>>] (64 - 23))) [^] b0; (* 202 *)
  b2 += b3; (* 203 *)
  b3 <- ((b3 [<<] 40) [|] (b3 [>>] (64 - 40))) [^] b2; (* 204 *)
  b0 += b3; (* 205 *)
  b3 <- ((b3 [<<] 5) [|] (b3 [>>] (64 - 5))) [^] b0; (* 206 *)
  b2 += b1; (* 207 *)
  b1 <- ((b1 [<<] 37) [|] (b1 [>>] (64 - 37))) [^] b2; (* 208 *)
  b1 += k3 [+] t1; (* 209 *)
  b0 += b1 [+] k2; (* 210 *)
  b1 <- ((b1 [<<] 25) [|] (b1 [>>] (64 - 25))) [^] b0; (* 211 *)
  b3 += k0 [+] EC 7; (* 212 *)
  b2 += b3 [+] k4 [+] t2; (* 213 *)
  b3 <- ((b3 [<<] 33) [|] (b3 [>>] (64 - 33))) [^] b2; (* 214 *)
  b0 += b3; (* 215 *)
  b3 <- ((b3 [<<] 46) [|] (b3 [>>] (64 - 46))) [^] b0; (* 216 *)
  b2 += b1; (* 217 *)
  b1 <- ((b1 [<<] 12) [|] (b1 [>>] (64 - 12))) [^] b2; (* 218 *)
  b0 += b1; (* 219 *)
  b1 <- ((b1 [<<] 58) [|] (b1 [>>] (64 - 58))) [^] b0; (* 220 *)
  b2 += b3; (* 221 *)
  b3 <- ((b3 [<<] 22) [|] (b3 [>>] (64 - 22))) [^] b2; (* 222 *)
  b0 += b3; (* 223 *)
  b3 <- ((b3 [<<] 32) [|] (b3 [>>] (64 - 32))) [^] b0; (* 224 *)
  b2 += b1; (* 225 *)
  b1 <- ((b1 [<<] 32) [|] (b1 [>>] (64 - 32))) [^] b2; (* 226 *)
  b1 += k4 [+] t2; (* 227 *)
  b0 += b1 [+] k3; (* 228 *)
  b1 <- ((b1 [<<] 14) [|] (b1 [>>] (64 - 14))) [^] b0; (* 229 *)
  b3 += k1 [+] EC 8; (* 230 *)
  b2 += b3 [+] k0 [+] t0; (* 231 *)
  b3 <- ((b3 [<<] 16) [|] (b3 [>>] (64 - 16))) [^] b2; (* 232 *)
  b0 += b3; (* 233 *)
  b3 <- ((b3 [<<] 52) [|] (b3 [>>] (64 - 52))) [^] b0; (* 234 *)
  b2 += b1; (* 235 *)
  b1 <- ((b1 [<<] 57) [|] (b1 [>>] (64 - 57))) [^] b2; (* 236 *)
  b0 += b1; (* 237 *)
  b1 <- ((b1 [<<] 23) [|] (b1 [>>] (64 - 23))) [^] b0; (* 238 *)
  b2 += b3; (* 239 *)
  b3 <- ((b3 [<<] 40) [|] (b3 [>>] (64 - 40))) [^] b2; (* 240 *)
  b0 += b3; (* 241 *)
  b3 <- ((b3 [<<] 5) [|] (b3 [>>] (64 - 5))) [^] b0; (* 242 *)
  b2 += b1; (* 243 *)
  b1 <- ((b1 [<<] 37) [|] (b1 [>>] (64 - 37))) [^] b2; (* 244 *)
  b1 += k0 [+] t0; (* 245 *)
  b0 += b1 [+] k4; (* 246 *)
  b1 <- ((b1 [<<] 25) [|] (b1 [>>] (64 - 25))) [^] b0; (* 247 *)
  b3 += k2 [+] EC 9; (* 248 *)
  b2 += b3 [+] k1 [+] t1; (* 249 *)
  b3 <- ((b3 [<<] 33) [|] (b3 [>>] (64 - 33))) [^] b2; (* 250 *)
  b0 += b3; (* 251 *)
  b3 <- ((b3 [<<] 46) [|] (b3 [>>] (64 - 46))) [^] b0; (* 252 *)
  b2 += b1; (* 253 *)
  b1 <- ((b1 [<<] 12) [|] (b1 [>>] (64 - 12))) [^] b2; (* 254 *)
  b0 += b1; (* 255 *)
  b1 <- ((b1 [<<] 58) [|] (b1 [>>] (64 - 58))) [^] b0; (* 256 *)
  b2 += b3; (* 257 *)
  b3 <- ((b3 [<<] 22) [|] (b3 [>>] (64 - 22))) [^] b2; (* 258 *)
  b0 += b3; (* 259 *)
  b3 <- ((b3 [<<] 32) [|] (b3 [>>] (64 - 32))) [^] b0; (* 260 *)
  b2 += b1; (* 261 *)
  b1 <- ((b1 [<<] 32) [|] (b1 [>>] (64 - 32))) [^] b2; (* 262 *)
  b1 += k1 [+] t1; (* 263 *)
  b0 += b1 [+] k0; (* 264 *)
  b1 <- ((b1 [<<] 14) [|] (b1 [>>] (64 - 14))) [^] b0; (* 265 *)
  b3 += k3 [+] EC 10; (* 266 *)
  b2 += b3 [+] k2 [+] t2; (* 267 *)
  b3 <- ((b3 [<<] 16) [|] (b3 [>>] (64 - 16))) [^] b2; (* 268 *)
  b0 += b3; (* 269 *)
  b3 <- ((b3 [<<] 52) [|] (b3 [>>] (64 - 52))) [^] b0; (* 270 *)
  b2 += b1; (* 271 *)
  b1 <- ((b1 [<<] 57) [|] (b1 [>>] (64 - 57))) [^] b2; (* 272 *)
  b0 += b1; (* 273 *)
  b1 <- ((b1 [<<] 23) [|] (b1 [>>] (64 - 23))) [^] b0; (* 274 *)
  b2 += b3; (* 275 *)
  b3 <- ((b3 [<<] 40) [|] (b3 [>>] (64 - 40))) [^] b2; (* 276 *)
  b0 += b3; (* 277 *)
  b3 <- ((b3 [<<] 5) [|] (b3 [>>] (64 - 5))) [^] b0; (* 278 *)
  b2 += b1; (* 279 *)
  b1 <- ((b1 [<<] 37) [|] (b1 [>>] (64 - 37))) [^] b2; (* 280 *)
  b1 += k2 [+] t2; (* 281 *)
  b0 += b1 [+] k1; (* 282 *)
  b1 <- ((b1 [<<] 25) [|] (b1 [>>] (64 - 25))) [^] b0; (* 283 *)
  b3 += k4 [+] EC 11; (* 284 *)
  b2 += b3 [+] k3 [+] t0; (* 285 *)
  b3 <- ((b3 [<<] 33) [|] (b3 [>>] (64 - 33))) [^] b2; (* 286 *)
  b0 += b3; (* 287 *)
  b3 <- ((b3 [<<] 46) [|] (b3 [>>] (64 - 46))) [^] b0; (* 288 *)
  b2 += b1; (* 289 *)
  b1 <- ((b1 [<<] 12) [|] (b1 [>>] (64 - 12))) [^] b2; (* 290 *)
  b0 += b1; (* 291 *)
  b1 <- ((b1 [<<] 58) [|] (b1 [>>] (64 - 58))) [^] b0; (* 292 *)
  b2 += b3; (* 293 *)
  b3 <- ((b3 [<<] 22) [|] (b3 [>>] (64 - 22))) [^] b2; (* 294 *)
  b0 += b3; (* 295 *)
  b3 <- ((b3 [<<] 32) [|] (b3 [>>] (64 - 32))) [^] b0; (* 296 *)
  b2 += b1; (* 297 *)
  b1 <- ((b1 [<<] 32) [|] (b1 [>>] (64 - 32))) [^] b2; (* 298 *)
  b1 += k3 [+] t0; (* 299 *)
  b0 += b1 [+] k2; (* 300 *)
  b1 <- ((b1 [<<] 14) [|] (b1 [>>] (64 - 14))) [^] b0; (* 301 *)
  b3 += k0 [+] EC 12; (* 302 *)
  b2 += b3 [+] k4 [+] t1; (* 303 *)
  b3 <- ((b3 [<<] 16) [|] (b3 [>>] (64 - 16))) [^] b2; (* 304 *)
  b0 += b3; (* 305 *)
  b3 <- ((b3 [<<] 52) [|] (b3 [>>] (64 - 52))) [^] b0; (* 306 *)
  b2 += b1; (* 307 *)
  b1 <- ((b1 [<<] 57) [|] (b1 [>>] (64 - 57))) [^] b2; (* 308 *)
  b0 += b1; (* 309 *)
  b1 <- ((b1 [<<] 23) [|] (b1 [>>] (64 - 23))) [^] b0; (* 310 *)
  b2 += b3; (* 311 *)
  b3 <- ((b3 [<<] 40) [|] (b3 [>>] (64 - 40))) [^] b2; (* 312 *)
  b0 += b3; (* 313 *)
  b3 <- ((b3 [<<] 5) [|] (b3 [>>] (64 - 5))) [^] b0; (* 314 *)
  b2 += b1; (* 315 *)
  b1 <- ((b1 [<<] 37) [|] (b1 [>>] (64 - 37))) [^] b2; (* 316 *)
  b1 += k4 [+] t1; (* 317 *)
  b0 += b1 [+] k3; (* 318 *)
  b1 <- ((b1 [<<] 25) [|] (b1 [>>] (64 - 25))) [^] b0; (* 319 *)
  b3 += k1 [+] EC 13; (* 320 *)
  b2 += b3 [+] k0 [+] t2; (* 321 *)
  b3 <- ((b3 [<<] 33) [|] (b3 [>>] (64 - 33))) [^] b2; (* 322 *)
  b0 += b3; (* 323 *)
  b3 <- ((b3 [<<] 46) [|] (b3 [>>] (64 - 46))) [^] b0; (* 324 *)
  b2 += b1; (* 325 *)
  b1 <- ((b1 [<<] 12) [|] (b1 [>>] (64 - 12))) [^] b2; (* 326 *)
  b0 += b1; (* 327 *)
  b1 <- ((b1 [<<] 58) [|] (b1 [>>] (64 - 58))) [^] b0; (* 328 *)
  b2 += b3; (* 329 *)
  b3 <- ((b3 [<<] 22) [|] (b3 [>>] (64 - 22))) [^] b2; (* 330 *)
  b0 += b3; (* 331 *)
  b3 <- ((b3 [<<] 32) [|] (b3 [>>] (64 - 32))) [^] b0; (* 332 *)
  b2 += b1; (* 333 *)
  b1 <- ((b1 [<<] 32) [|] (b1 [>>] (64 - 32))) [^] b2; (* 334 *)
  b1 += k0 [+] t2; (* 335 *)
  b0 += b1 [+] k4; (* 336 *)
  b1 <- ((b1 [<<] 14) [|] (b1 [>>] (64 - 14))) [^] b0; (* 337 *)
  b3 += k2 [+] EC 14; (* 338 *)
  b2 += b3 [+] k1 [+] t0; (* 339 *)
  b3 <- ((b3 [<<] 16) [|] (b3 [>>] (64 - 16))) [^] b2; (* 340 *)
  b0 += b3; (* 341 *)
  b3 <- ((b3 [<<] 52) [|] (b3 [>>] (64 - 52))) [^] b0; (* 342 *)
  b2 += b1; (* 343 *)
  b1 <- ((b1 [<<] 57) [|] (b1 [>>] (64 - 57))) [^] b2; (* 344 *)
  b0 += b1; (* 345 *)
  b1 <- ((b1 [<<] 23) [|] (b1 [>>] (64 - 23))) [^] b0; (* 346 *)
  b2 += b3; (* 347 *)
  b3 <- ((b3 [<<] 40) [|] (b3 [>>] (64 - 40))) [^] b2; (* 348 *)
  b0 += b3; (* 349 *)
  b3 <- ((b3 [<<] 5) [|] (b3 [>>] (64 - 5))) [^] b0; (* 350 *)
  b2 += b1; (* 351 *)
  b1 <- ((b1 [<<] 37) [|] (b1 [>>] (64 - 37))) [^] b2; (* 352 *)
  b1 += k1 [+] t0; (* 353 *)
  b0 += b1 [+] k0; (* 354 *)
  b1 <- ((b1 [<<] 25) [|] (b1 [>>] (64 - 25))) [^] b0; (* 355 *)
  b3 += k3 [+] EC 15; (* 356 *)
  b2 += b3 [+] k2 [+] t1; (* 357 *)
  b3 <- ((b3 [<<] 33) [|] (b3 [>>] (64 - 33))) [^] b2; (* 358 *)
  b0 += b3; (* 359 *)
  b3 <- ((b3 [<<] 46) [|] (b3 [>>] (64 - 46))) [^] b0; (* 360 *)
  b2 += b1; (* 361 *)
  b1 <- ((b1 [<<] 12) [|] (b1 [>>] (64 - 12))) [^] b2; (* 362 *)
  b0 += b1; (* 363 *)
  b1 <- ((b1 [<<] 58) [|] (b1 [>>] (64 - 58))) [^] b0; (* 364 *)
  b2 += b3; (* 365 *)
  b3 <- ((b3 [<<] 22) [|] (b3 [>>] (64 - 22))) [^] b2; (* 366 *)
  b0 += b3; (* 367 *)
  b3 <- ((b3 [<<] 32) [|] (b3 [>>] (64 - 32))) [^] b0; (* 368 *)
  b2 += b1; (* 369 *)
  b1 <- ((b1 [<<] 32) [|] (b1 [>>] (64 - 32))) [^] b2; (* 370 *)
  b1 += k2 [+] t1; (* 371 *)
  b0 += b1 [+] k1; (* 372 *)
  b1 <- ((b1 [<<] 14) [|] (b1 [>>] (64 - 14))) [^] b0; (* 373 *)
  b3 += k4 [+] EC 16; (* 374 *)
  b2 += b3 [+] k3 [+] t2; (* 375 *)
  b3 <- ((b3 [<<] 16) [|] (b3 [>>] (64 - 16))) [^] b2; (* 376 *)
  b0 += b3; (* 377 *)
  b3 <- ((b3 [<<] 52) [|] (b3 [>>] (64 - 52))) [^] b0; (* 378 *)
  b2 += b1; (* 379 *)
  b1 <- ((b1 [<<] 57) [|] (b1 [>>] (64 - 57))) [^] b2; (* 380 *)
  b0 += b1; (* 381 *)
  b1 <- ((b1 [<<] 23) [|] (b1 [>>] (64 - 23))) [^] b0; (* 382 *)
  b2 += b3; (* 383 *)
  b3 <- ((b3 [<<] 40) [|] (b3 [>>] (64 - 40))) [^] b2; (* 384 *)
  b0 += b3; (* 385 *)
  b3 <- ((b3 [<<] 5) [|] (b3 [>>] (64 - 5))) [^] b0; (* 386 *)
  b2 += b1; (* 387 *)
  b1 <- ((b1 [<<] 37) [|] (b1 [>>] (64 - 37))) [^] b2; (* 388 *)
  b1 += k3 [+] t2; (* 389 *)
  b0 += b1 [+] k2; (* 390 *)
  b1 <- ((b1 [<<] 25) [|] (b1 [>>] (64 - 25))) [^] b0; (* 391 *)
  b3 += k0 [+] EC 17; (* 392 *)
  b2 += b3 [+] k4 [+] t0; (* 393 *)
  b3 <- ((b3 [<<] 33) [|] (b3 [>>] (64 - 33))) [^] b2; (* 394 *)
  b0 += b3; (* 395 *)
  b3 <- ((b3 [<<] 46) [|] (b3 [>>] (64 - 46))) [^] b0; (* 396 *)
  b2 += b1; (* 397 *)
  b1 <- ((b1 [<<] 12) [|] (b1 [>>] (64 - 12))) [^] b2; (* 398 *)
  b0 += b1; (* 399 *)
  b1 <- ((b1 [<<] 58) [|] (b1 [>>] (64 - 58))) [^] b0; (* 400 *)
  b2 += b3; (* 401 *)
  b3 <- ((b3 [<<] 22) [|] (b3 [>>] (64 - 22))) [^] b2; (* 402 *)
  b0 += b3; (* 403 *)
  b3 <- ((b3 [<<] 32) [|] (b3 [>>] (64 - 32))) [^] b0; (* 404 *)
  b2 += b1; (* 405 *)
  b1 <- ((b1 [<<] 32) [|] (b1 [>>] (64 - 32))) [^] b2; (* 406 *)
  (Out 0) <- b0 [+] k3; (* 408 *)
  (Out 1) <- b1 [+] k4 [+] t0; (* 409 *)
  (Out 2) <- b2 [+] k0 [+] t1; (* 410 *)
  (Out 3) <- b3 [+] k1 [+] EC 18 (* 411 *)
].

(** crypter/crypter256.go:415-911, func (tf *threefish256) decrypt. *)
Definition decrypt256_body : list stmt := [
  b0 <- EV (In 0); (* 417 *)
  b1 <- EV (In 1); (* 418 *)
  b2 <- EV (In 2); (* 419 *)
  b3 <- EV (In 3); (* 420 *)
  k0 <- EV (XK 0); (* 422 *)
  k1 <- EV (XK 1); (* 423 *)
  k2 <- EV (XK 2); (* 424 *)
  k3 <- EV (XK 3); (* 425 *)
  k4 <- EV (XK 4); (* 426 *)
  t0 <- EV (XT 0); (* 428 *)
  t1 <- EV (XT 1); (* 429 *)
  t2 <- EV (XT 2); (* 430 *)
  b0 -= k3; (* 434 *)
  b1 -= k4 [+] t0; (* 435 *)
  b2 -= k0 [+] t1; (* 436 *)
  b3 -= k1 [+] EC 18; (* 437 *)
  tmp <- b3 [^] b0; (* 438 *)
  b3 <- (tmp [>>] 32) [|] (tmp [<<] (64 - 32)); (* 439 *)
  b0 -= b3; (* 440 *)
  tmp <- b1 [^] b2; (* 441 *)
  b1 <- (tmp [>>] 32) [|] (tmp [<<] (64 - 32)); (* 442 *)
  b2 -= b1; (* 443 *)
  tmp <- b1 [^] b0; (* 444 *)
  b1 <- (tmp [>>] 58) [|] (tmp [<<] (64 - 58)); (* 445 *)
  b0 -= b1; (* 446 *)
  tmp <- b3 [^] b2; (* 447 *)
  b3 <- (tmp [>>] 22) [|] (tmp [<<] (64 - 22)); (* 448 *)
  b2 -= b3; (* 449 *)
  tmp <- b3 [^] b0; (* 450 *)
  b3 <- (tmp [>>] 46) [|] (tmp [<<] (64 - 46)); (* 451 *)
  b0 -= b3; (* 452 *)
  tmp <- b1 [^] b2; (* 453 *)
  b1 <- (tmp [>>] 12) [|] (tmp [<<] (64 - 12)); (* 454 *)
  b2 -= b1; (* 455 *)
  tmp <- b1 [^] b0; (* 456 *)
  b1 <- (tmp [>>] 25) [|] (tmp [<<] (64 - 25)); (* 457 *)
  b0 -= b1 [+] k2; (* 458 *)
  b1 -= k3 [+] t2; (* 459 *)
  tmp <- b3 [^] b2; (* 460 *)
  b3 <- (tmp [>>] 33) [|] (tmp [<<] (64 - 33)); (* 461 *)
  b2 -= b3 [+] k4 [+] t0; (* 462 *)
  b3 -= k0 [+] EC 17; (* 463 *)
  tmp <- b3 [^] b0; (* 464 *)
  b3 <- (tmp [>>] 5) [|] (tmp [<<] (64 - 5)); (* 465 *)
  b0 -= b3; (* 466 *)
  tmp <- b1 [^] b2; (* 467 *)
  b1 <- (tmp [>>] 37) [|] (tmp [<<] (64 - 37)); (* 468 *)
  b2 -= b1; (* 469 *)
  tmp <- b1 [^] b0; (* 470 *)
  b1 <- (tmp [>>] 23) [|] (tmp [<<] (64 - 23)); (* 471 *)
  b0 -= b1; (* 472 *)
  tmp <- b3 [^] b2; (* 473 *)
  b3 <- (tmp [>>] 40) [|] (tmp [<<] (64 - 40)); (* 474 *)
  b2 -= b3; (* 475 *)
  tmp <- b3 [^] b0; (* 476 *)
  b3 <- (tmp [>>] 52) [|] (tmp [<<] (64 - 52)); (* 477 *)
  b0 -= b3; (* 478 *)
  tmp <- b1 [^] b2; (* 479 *)
  b1 <- (tmp [>>] 57) [|] (tmp [<<] (64 - 57)); (* 480 *)
  b2 -= b1; (* 481 *)
  tmp <- b1 [^] b0; (* 482 *)
  b1 <- (tmp [>>] 14) [|] (tmp [<<] (64 - 14)); (* 483 *)
  b0 -= b1 [+] k1; (* 484 *)
  b1 -= k2 [+] t1; (* 485 *)
  tmp <- b3 [^] b2; (* 486 *)
  b3 <- (tmp [>>] 16) [|] (tmp [<<] (64 - 16)); (* 487 *)
  b2 -= b3 [+] k3 [+] t2; (* 488 *)
  b3 -= k4 [+] EC 16; (* 489 *)
  tmp <- b3 [^] b0; (* 490 *)
  b3 <- (tmp [>>] 32) [|] (tmp [<<] (64 - 32)); (* 491 *)
  b0 -= b3; (* 492 *)
  tmp <- b1 [^] b2; (* 493 *)
  b1 <- (tmp [>>] 32) [|] (tmp [<<] (64 - 32)); (* 494 *)
  b2 -= b1; (* 495 *)
  tmp <- b1 [^] b0; (* 496 *)
  b1 <- (tmp [>>] 58) [|] (tmp [<<] (64 - 58)); (* 497 *)
  b0 -= b1; (* 498 *)
  tmp <- b3 [^] b2; (* 499 *)
  b3 <- (tmp [>>] 22) [|] (tmp [<<] (64 - 22)); (* 500 *)
  b2 -= b3; (* 501 *)
  tmp <- b3 [^] b0; (* 502 *)
  b3 <- (tmp [>>] 46) [|] (tmp [<<] (64 - 46)); (* 503 *)
  b0 -= b3; (* 504 *)
  tmp <- b1 [^] b2; (* 505 *)
  b1 <- (tmp [>>] 12) [|] (tmp [<<] (64 - 12)); (* 506 *)
  b2 -= b1; (* 507 *)
  tmp <- b1 [^] b0; (* 508 *)
  b1 <- (tmp [>>] 25) [|] (tmp [<<] (64 - 25)); (* 509 *)
  b0 -= b1 [+] k0; (* 510 *)
  b1 -= k1 [+] t0; (* 511 *)
  tmp <- b3 [^] b2; (* 512 *)
  b3 <- (tmp [>>] 33) [|] (tmp [<<] (64 - 33)); (* 513 *)
  b2 -= b3 [+] k2 [+] t1; (* 514 *)
  b3 -= k3 [+] EC 15; (* 515 *)
  tmp <- b3 [^] b0; (* 516 *)
  b3 <- (tmp [>>] 5) [|] (tmp [<<] (64 - 5)); (* 517 *)
  b0 -= b3; (* 518 *)
  tmp <- b1 [^] b2; (* 519 *)
  b1 <- (tmp [>>] 37) [|] (tmp [<<] (64 - 37)); (* 520 *)
  b2 -= b1; (* 521 *)
  tmp <- b1 [^] b0; (* 522 *)
  b1 <- (tmp [>>] 23) [|] (tmp [<<] (64 - 23)); (* 523 *)
  b0 -= b1; (* 524 *)
  tmp <- b3 [^] b2; (* 525 *)
  b3 <- (tmp [>>] 40) [|] (tmp [<<] (64 - 40)); (* 526 *)
  b2 -= b3; (* 527 *)
  tmp <- b3 [^] b0; (* 528 *)
  b3 <- (tmp [>>] 52) [|] (tmp [<<] (64 - 52)); (* 529 *)
  b0 -= b3; (* 530 *)
  tmp <- b1 [^] b2; (* 531 *)
  b1 <- (tmp [>>] 57) [|] (tmp [<<] (64 - 57)); (* 532 *)
  b2 -= b1; (* 533 *)
  tmp <- b1 [^] b0; (* 534 *)
  b1 <- (tmp [>>] 14) [|] (tmp [<<] (64 - 14)); (* 535 *)
  b0 -= b1 [+] k4; (* 536 *)
  b1 -= k0 [+] t2; (* 537 *)
  tmp <- b3 [^] b2; (* 538 *)
  b3 <- (tmp [>>] 16) [|] (tmp [<<] (64 - 16)); (* 539 *)
  b2 -= b3 [+] k1 [+] t0; (* 540 *)
  b3 -= k2 [+] EC 14; (* 541 *)
  tmp <- b3 [^] b0; (* 542 *)
  b3 <- (tmp [>>] 32) [|] (tmp [<<] (64 - 32)); (* 543 *)
  b0 -= b3; (* 544 *)
  tmp <- b1 [^] b2; (* 545 *)
  b1 <- (tmp [>>] 32) [|] (tmp [<<] (64 - 32)); (* 546 *)
  b2 -= b1; (* 547 *)
  tmp <- b1 [^] b0; (* 548 *)
  b1 <- (tmp [>>] 58) [|] (tmp [<<] (64 - 58)); (* 549 *)
  b0 -= b1; (* 550 *)
  tmp <- b3 [^] b2; (* 551 *)
  b3 <- (tmp [>>] 22) [|] (tmp [<<] (64 - 22)); (* 552 *)
  b2 -= b3; (* 553 *)
  tmp <- b3 [^] b0; (* 554 *)
  b3 <- (tmp [>>] 46) [|] (tmp [<<] (64 - 46)); (* 555 *)
  b0 -= b3; (* 556 *)
  tmp <- b1 [^] b2; (* 557 *)
  b1 <- (tmp [>>] 12) [|] (tmp [<<] (64 - 12)); (* 558 *)
  b2 -= b1; (* 559 *)
  tmp <- b1 [^] b0; (* 560 *)
  b1 <- (tmp [>>] 25) [|] (tmp [<<] (64 - 25)); (* 561 *)
  b0 -= b1 [+] k3; (* 562 *)
  b1 -= k4 [+] t1; (* 563 *)
  tmp <- b3 [^] b2; (* 564 *)
  b3 <- (tmp [>>] 33) [|] (tmp [<<] (64 - 33)); (* 565 *)
  b2 -= b3 [+] k0 [+] t2; (* 566 *)
  b3 -= k1 [+] EC 13; (* 567 *)
  tmp <- b3 [^] b0; (* 568 *)
  b3 <- (tmp [>>] 5) [|] (tmp [<<] (64 - 5)); (* 569 *)
  b0 -= b3; (* 570 *)
  tmp <- b1 [^] b2; (* 571 *)
  b1 <- (tmp [>>] 37) [|] (tmp [<<] (64 - 37)); (* 572 *)
  b2 -= b1; (* 573 *)
  tmp <- b1 [^] b0; (* 574 *)
  b1 <- (tmp [>>] 23) [|] (tmp [<<] (64 - 23)); (* 575 *)
  b0 -= b1; (* 576 *)
  tmp <- b3 [^] b2; (* 577 *)
  b3 <- (tmp [>>] 40) [|] (tmp [<<] (64 - 40)); (* 578 *)
  b2 -= b3; (* 579 *)
  tmp <- b3 [^] b0; (* 580 *)
  b3 <- (tmp [>>] 52) [|] (tmp [<<] (64 - 52)); (* 581 *)
  b0 -= b3; (* 582 *)
  tmp <- b1 [^] b2; (* 583 *)
  b1 <- (tmp [>>] 57) [|] (tmp [<<] (64 - 57)); (* 584 *)
  b2 -= b1; (* 585 *)
  tmp <- b1 [^] b0; (* 586 *)
  b1 <- (tmp [>>] 14) [|] (tmp [<<] (64 - 14)); (* 587 *)
  b0 -= b1 [+] k2; (* 588 *)
  b1 -= k3 [+] t0; (* 589 *)
  tmp <- b3 [^] b2; (* 590 *)
  b3 <- (tmp [>>] 16) [|] (tmp [<<] (64 - 16)); (* 591 *)
  b2 -= b3 [+] k4 [+] t1; (* 592 *)
  b3 -= k0 [+] EC 12; (* 593 *)
  tmp <- b3 [^] b0; (* 594 *)
  b3 <- (tmp [>>] 32) [|] (tmp [<<] (64 - 32)); (* 595 *)
  b0 -= b3; (* 596 *)
  tmp <- b1 [^] b2; (* 597 *)
  b1 <- (tmp [>>] 32) [|] (tmp [<<] (64 - 32)); (* 598 *)
  b2 -= b1; (* 599 *)
  tmp <- b1 [^] b0; (* 600 *)
  b1 <- (tmp [>>] 58) [|] (tmp [<<] (64 - 58)); (* 601 *)
  b0 -= b1; (* 602 *)
  tmp <- b3 [^] b2; (* 603 *)
  b3 <- (tmp [>>] 22) [|] (tmp [<<] (64 - 22)); (* 604 *)
  b2 -= b3; (* 605 *)
  tmp <- b3 [^] b0; (* 606 *)
  b3 <- (tmp [>>] 46) [|] (tmp [<<] (64 - 46)); (* 607 *)
  b0 -= b3; (* 608 *)
  tmp <- b1 [^] b2; (* 609 *)
  b1 <- (tmp [>>] 12) [|] (tmp [<<] (64 - 12)); (* 610 *)
  b2 -= b1; (* 611 *)
  tmp <- b1 [^] b0; (* 612 *)
  b1 <- (tmp [>>] 25) [|] (tmp [<<] (64 - 25)); (* 613 *)
  b0 -= b1 [+] k1; (* 614 *)
  b1 -= k2 [+] t2; (* 615 *)
  tmp <- b3 [^] b2; (* 616 *)
  b3 <- (tmp [>>] 33) [|] (tmp [<<] (64 - 33)); (* 617 *)
  b2 -= b3 [+] k3 [+] t0; (* 618 *)
  b3 -= k4 [+] EC 11; (* 619 *)
  tmp <- b3 [^] b0; (* 620 *)
  b3 <- (tmp [>>] 5) [|] (tmp [<<] (64 - 5)); (* 621 *)
  b0 -= b3; (* 622 *)
  tmp <- b1 [^] b2; (* 623 *)
  b1 <- (tmp [>>] 37) [|] (tmp [<<] (64 - 37)); (* 624 *)
  b2 -= b1; (* 625 *)
  tmp <- b1 [^] b0; (* 626 *)
  b1 <- (tmp [>>] 23) [|] (tmp [<<] (64 - 23)); (* 627 *)
  b0 -= b1; (* 628 *)
  tmp <- b3 [^] b2; (* 629 *)
  b3 <- (tmp [>>] 40) [|] (tmp [<<] (64 - 40)); (* 630 *)
  b2 -= b3; (* 631 *)
  tmp <- b3 [^] b0; (* 632 *)
  b3 <- (tmp [>>] 52) [|] (tmp [<<] (64 - 52)); (* 633 *)
  b0 -= b3; (* 634 *)
  tmp <- b1 [^] b2; (* 635 *)
  b1 <- (tmp [>>] 57) [|] (tmp [<<] (64 - 57)); (* 636 *)
  b2 -= b1; (* 637 *)
  tmp <- b1 [^] b0; (* 638 *)
  b1 <- (tmp [>>] 14) [|] (tmp [<<] (64 - 14)); (* 639 *)
  b0 -= b1 [+] k0; (* 640 *)
  b1 -= k1 [+] t1; (* 641 *)
  tmp <- b3 [^] b2; (* 642 *)
  b3 <- (tmp [>>] 16) [|] (tmp [<<] (64 - 16)); (* 643 *)
  b2 -= b3 [+] k2 [+] t2; (* 644 *)
  b3 -= k3 [+] EC 10; (* 645 *)
  tmp <- b3 [^] b0; (* 646 *)
  b3 <- (tmp [>>] 32) [|] (tmp [<<] (64 - 32)); (* 647 *)
  b0 -= b3; (* 648 *)
  tmp <- b1 [^] b2; (* 649 *)
  b1 <- (tmp [>>] 32) [|] (tmp [<<] (64 - 32)); (* 650 *)
  b2 -= b1; (* 651 *)
  tmp <- b1 [^] b0; (* 652 *)
  b1 <- (tmp [>>] 58) [|] (tmp [<<] (64 - 58)); (* 653 *)
  b0 -= b1; (* 654 *)
  tmp <- b3 [^] b2; (* 655 *)
  b3 <- (tmp [>>] 22) [|] (tmp [<<] (64 - 22)); (* 656 *)
  b2 -= b3; (* 657 *)
  tmp <- b3 [^] b0; (* 658 *)
  b3 <- (tmp [>>] 46) [|] (tmp [<<] (64 - 46)); (* 659 *)
  b0 -= b3; (* 660 *)
  tmp <- b1 [^] b2; (* 661 *)
  b1 <- (tmp [>>] 12) [|] (tmp [<<] (64 - 12)); (* 662 *)
  b2 -= b1; (* 663 *)
  tmp <- b1 [^] b0; (* 664 *)
  b1 <- (tmp [>>] 25) [|] (tmp [<<] (64 - 25)); (* 665 *)
  b0 -= b1 [+] k4; (* 666 *)
  b1 -= k0 [+] t0; (* 667 *)
  tmp <- b3 [^] b2; (* 668 *)
  b3 <- (tmp [>>] 33) [|] (tmp [<<] (64 - 33)); (* 669 *)
  b2 -= b3 [+] k1 [+] t1; (* 670 *)
  b3 -= k2 [+] EC 9; (* 671 *)
  tmp <- b3 [^] b0; (* 672 *)
  b3 <- (tmp [>>] 5) [|] (tmp [<<] (64 - 5)); (* 673 *)
  b0 -= b3; (* 674 *)
  tmp <- b1 [^] b2; (* 675 *)
  b1 <- (tmp [>>] 37) [|] (tmp [<<] (64 - 37)); (* 676 *)
  b2 -= b1; (* 677 *)
  tmp <- b1 [^] b0; (* 678 *)
  b1 <- (tmp [>>] 23) [|] (tmp [<<] (64 - 23)); (* 679 *)
  b0 -= b1; (* 680 *)
  tmp <- b3 [^] b2; (* 681 *)
  b3 <- (tmp [>>] 40) [|] (tmp [<<] (64 - 40)); (* 682 *)
  b2 -= b3; (* 683 *)
  tmp <- b3 [^] b0; (* 684 *)
  b3 <- (tmp [>>] 52) [|] (tmp [<<] (64 - 52)); (* 685 *)
  b0 -= b3; (* 686 *)
  tmp <- b1 [^] b2; (* 687 *)
  b1 <- (tmp [>>] 57) [|] (tmp [<<] (64 - 57)); (* 688 *)
  b2 -= b1; (* 689 *)
  tmp <- b1 [^] b0; (* 690 *)
  b1 <- (tmp [>>] 14) [|] (tmp [<<] (64 - 14)); (* 691 *)
  b0 -= b1 [+] k3; (* 692 *)
  b1 -= k4 [+] t2; (* 693 *)
  tmp <- b3 [^] b2; (* 694 *)
  b3 <- (tmp [>>] 16) [|] (tmp [<<] (64 - 16)); (* 695 *)
  b2 -= b3 [+] k0 [+] t0; (* 696 *)
  b3 -= k1 [+] EC 8; (* 697 *)
  tmp <- b3 [^] b0; (* 698 *)
  b3 <- (tmp [>>] 32) [|] (tmp [<<] (64 - 32)); (* 699 *)
  b0 -= b3; (* 700 *)
  tmp <- b1 [^] b2; (* 701 *)
  b1 <- (tmp [>>] 32) [|] (tmp [<<] (64 - 32)); (* 702 *)
  b2 -= b1; (* 703 *)
  tmp <- b1 [^] b0; (* 704 *)
  b1 <- (tmp [>>] 58) [|] (tmp [<<] (64 - 58)); (* 705 *)
  b0 -= b1; (* 706 *)
  tmp <- b3 [^] b2; (* 707 *)
  b3 <- (tmp [>>] 22) [|] (tmp [<<] (64 - 22)); (* 708 *)
  b2 -= b3; (* 709 *)
  tmp <- b3 [^] b0; (* 710 *)
  b3 <- (tmp [>>] 46) [|] (tmp [<<] (64 - 46)); (* 711 *)
  b0 -= b3; (* 712 *)
  tmp <- b1 [^] b2; (* 713 *)
  b1 <- (tmp [>>] 12) [|] (tmp [<<] (64 - 12)); (* 714 *)
  b2 -= b1; (* 715 *)
  tmp <- b1 [^] b0; (* 716 *)
  b1 <- (tmp [>>] 25) [|] (tmp [<<] (64 - 25)); (* 717 *)
  b0 -= b1 [+] k2; (* 718 *)
  b1 -= k3 [+] t1; (* 719 *)
  tmp <- b3 [^] b2; (* 720 *)
  b3 <- (tmp [>>] 33) [|] (tmp [<<] (64 - 33)); (* 721 *)
  b2 -= b3 [+] k4 [+] t2; (* 722 *)
  b3 -= k0 [+] EC 7; (* 723 *)
  tmp <- b3 [^] b0; (* 724 *)
  b3 <- (tmp [>>] 5) [|] (tmp [<<] (64 - 5)); (* 725 *)
  b0 -= b3; (* 726 *)
  tmp <- b1 [^] b2; (* 727 *)
  b1 <- (tmp [>>] 37) [|] (tmp [<<] (64 - 37)); (* 728 *)
  b2 -= b1; (* 729 *)
  tmp <- b1 [^] b0; (* 730 *)
  b1 <- (tmp [>>] 23) [|] (tmp [<<] (64 - 23)); (* 731 *)
  b0 -= b1; (* 732 *)
  tmp <- b3 [^] b2; (* 733 *)
  b3 <- (tmp [>>] 40) [|] (tmp [<<] (64 - 40)); (* 734 *)
  b2 -= b3; (* 735 *)
  tmp <- b3 [^] b0; (* 736 *)
  b3 <- (tmp [>>] 52) [|] (tmp [<<] (64 - 52)); (* 737 *)
  b0 -= b3; (* 738 *)
  tmp <- b1 [^] b2; (* 739 *)
  b1 <- (tmp [>>] 57) [|] (tmp [<<] (64 - 57)); (* 740 *)
  b2 -= b1; (* 741 *)
  tmp <- b1 [^] b0; (* 742 *)
  b1 <- (tmp [>>] 14) [|] (tmp [<<] (64 - 14)); (* 743 *)
  b0 -= b1 [+] k1; (* 744 *)
  b1 -= k2 [+] t0; (* 745 *)
  tmp <- b3 [^] b2; (* 746 *)
  b3 <- (tmp [>>] 16) [|] (tmp [<<] (64 - 16)); (* 747 *)
  b2 -= b3 [+] k3 [+] t1; (* 748 *)
  b3 -= k4 [+] EC 6; (* 749 *)
  tmp <- b3 [^] b0; (* 750 *)
  b3 <- (tmp [>>] 32) [|] (tmp [<<] (64 - 32)); (* 751 *)
  b0 -= b3; (* 752 *)
  tmp <- b1 [^] b2; (* 753 *)
  b1 <- (tmp [>>] 32) [|] (tmp [<<] (64 - 32)); (* 754 *)
  b2 -= b1; (* 755 *)
  tmp <- b1 [^] b0; (* 756 *)
  b1 <- (tmp [>>] 58) [|] (tmp [<<] (64 - 58)); (* 757 *)
  b0 -= b1; (* 758 *)
  tmp <- b3 [^] b2; (* 759 *)
  b3 <- (tmp [>>] 22) [|] (tmp [<<] (64 - 22)); (* 760 *)
  b2 -= b3; (* 761 *)
  tmp <- b3 [^] b0; (* 762 *)
  b3 <- (tmp [>>] 46) [|] (tmp [<<] (64 - 46)); (* 763 *)
  b0 -= b3; (* 764 *)
  tmp <- b1 [^] b2; (* 765 *)
  b1 <- (tmp [>>] 12) [|] (tmp [<<] (64 - 12)); (* 766 *)
  b2 -= b1; (* 767 *)
  tmp <- b1 [^] b0; (* 768 *)
  b1 <- (tmp [>>] 25) [|] (tmp [<<] (64 - 25)); (* 769 *)
  b0 -= b1 [+] k0; (* 770 *)
  b1 -= k1 [+] t2; (* 771 *)
  tmp <- b3 [^] b2; (* 772 *)
  b3 <- (tmp [>>] 33) [|] (tmp [<<] (64 - 33)); (* 773 *)
  b2 -= b3 [+] k2 [+] t0; (* 774 *)
  b3 -= k3 [+] EC 5; (* 775 *)
  tmp <- b3 [^] b0; (* 776 *)
  b3 <- (tmp [>>] 5) [|] (tmp [<<] (64 - 5)); (* 777 *)
  b0 -= b3; (* 778 *)
  tmp <- b1 [^] b2; (* 779 *)
  b1 <- (tmp [>>] 37) [|] (tmp [<<] (64 - 37)); (* 780 *)
  b2 -= b1; (* 781 *)
  tmp <- b1 [^] b0; (* 782 *)
  b1 <- (tmp [>>] 23) [|] (tmp [<<] (64 - 23)); (* 783 *)
  b0 -= b1; (* 784 *)
  tmp <- b3 [^] b2; (* 785 *)
  b3 <- (tmp [>>] 40) [|] (tmp [<<] (64 - 40)); (* 786 *)
  b2 -= b3; (* 787 *)
  tmp <- b3 [^] b0; (* 788 *)
  b3 <- (tmp [>>] 52) [|] (tmp [<<] (64 - 52)); (* 789 *)
  b0 -= b3; (* 790 *)
  tmp <- b1 [^] b2; (* 791 *)
  b1 <- (tmp [>>] 57) [|] (tmp [<<] (64 - 57)); (* 792 *)
  b2 -= b1; (* 793 *)
  tmp <- b1 [^] b0; (* 794 *)
  b1 <- (tmp [>>] 14) [|] (tmp [<<] (64 - 14)); (* 795 *)
  b0 -= b1 [+] k4; (* 796 *)
  b1 -= k0 [+] t1; (* 797 *)
  tmp <- b3 [^] b2; (* 798 *)
  b3 <- (tmp [>>] 16) [|] (tmp [<<] (64 - 16)); (* 799 *)
  b2 -= b3 [+] k1 [+] t2; (* 800 *)
  b3 -= k2 [+] EC 4; (* 801 *)
  tmp <- b3 [^] b0; (* 802 *)
  b3 <- (tmp [>>] 32) [|] (tmp [<<] (64 - 32)); (* 803 *)
  b0 -= b3; (* 804 *)
  tmp <- b1 [^] b2; (* 805 *)
  b1 <- (tmp [>>] 32) [|] (tmp [<<] (64 - 32)); (* 806 *)
  b2 -= b1; (* 807 *)
  tmp <- b1 [^] b0; (* 808 *)
  b1 <- (tmp [>>] 58) [|] (tmp [<<] (64 - 58)); (* 809 *)
  b0 -= b1; (* 810 *)
  tmp <- b3 [^] b2; (* 811 *)
  b3 <- (tmp [>>] 22) [|] (tmp [<<] (64 - 22)); (* 812 *)
  b2 -= b3; (* 813 *)
  tmp <- b3 [^] b0; (* 814 *)
  b3 <- (tmp [>>] 46) [|] (tmp [<<] (64 - 46)); (* 815 *)
  b0 -= b3; (* 816 *)
  tmp <- b1 [^] b2; (* 817 *)
  b1 <- (tmp [>>] 12) [|] (tmp [<<] (64 - 12)); (* 818 *)
  b2 -= b1; (* 819 *)
  tmp <- b1 [^] b0; (* 820 *)
  b1 <- (tmp [>>] 25) [|] (tmp [<<] (64 - 25)); (* 821 *)
  b0 -= b1 [+] k3; (* 822 *)
  b1 -= k4 [+] t0; (* 823 *)
  tmp <- b3 [^] b2; (* 824 *)
  b3 <- (tmp [>>] 33) [|] (tmp [<<] (64 - 33)); (* 825 *)
  b2 -= b3 [+] k0 [+] t1; (* 826 *)
  b3 -= k1 [+] EC 3; (* 827 *)
  tmp <- b3 [^] b0; (* 828 *)
  b3 <- (tmp [>>] 5) [|] (tmp [<<] (64 - 5)); (* 829 *)
  b0 -= b3; (* 830 *)
  tmp <- b1 [^] b2; (* 831 *)
  b1 <- (tmp [>>] 37) [|] (tmp [<<] (64 - 37)); (* 832 *)
  b2 -= b1; (* 833 *)
  tmp <- b1 [^] b0; (* 834 *)
  b1 <- (tmp [>>] 23) [|] (tmp [<<] (64 - 23)); (* 835 *)
  b0 -= b1; (* 836 *)
  tmp <- b3 [^] b2; (* 837 *)
  b3 <- (tmp [>>] 40) [|] (tmp [<<] (64 - 40)); (* 838 *)
  b2 -= b3; (* 839 *)
  tmp <- b3 [^] b0; (* 840 *)
  b3 <- (tmp [>>] 52) [|] (tmp [<<] (64 - 52)); (* 841 *)
  b0 -= b3; (* 842 *)
  tmp <- b1 [^] b2; (* 843 *)
  b1 <- (tmp [>>] 57) [|] (tmp [<<] (64 - 57)); (* 844 *)
  b2 -= b1; (* 845 *)
  tmp <- b1 [^] b0; (* 846 *)
  b1 <- (tmp [>>] 14) [|] (tmp [<<] (64 - 14)); (* 847 *)
  b0 -= b1 [+] k2; (* 848 *)
  b1 -= k3 [+] t2; (* 849 *)
  tmp <- b3 [^] b2; (* 850 *)
  b3 <- (tmp [>>] 16) [|] (tmp [<<] (64 - 16)); (* 851 *)
  b2 -= b3 [+] k4 [+] t0; (* 852 *)
  b3 -= k0 [+] EC 2; (* 853 *)
  tmp <- b3 [^] b0; (* 854 *)
  b3 <- (tmp [>>] 32) [|] (tmp [<<] (64 - 32)); (* 855 *)
  b0 -= b3; (* 856 *)
  tmp <- b1 [^] b2; (* 857 *)
  b1 <- (tmp [>>] 32) [|] (tmp [<<] (64 - 32)); (* 858 *)
  b2 -= b1; (* 859 *)
  tmp <- b1 [^] b0; (* 860 *)
  b1 <- (tmp [>>] 58) [|] (tmp [<<] (64 - 58)); (* 861 *)
  b0 -= b1; (* 862 *)
  tmp <- b3 [^] b2; (* 863 *)
  b3 <- (tmp [>>] 22) [|] (tmp [<<] (64 - 22)); (* 864 *)
  b2 -= b3; (* 865 *)
  tmp <- b3 [^] b0; (* 866 *)
  b3 <- (tmp [>>] 46) [|] (tmp [<<] (64 - 46)); (* 867 *)
  b0 -= b3; (* 868 *)
  tmp <- b1 [^] b2; (* 869 *)
  b1 <- (tmp [>>] 12) [|] (tmp [<<] (64 - 12)); (* 870 *)
  b2 -= b1; (* 871 *)
  tmp <- b1 [^] b0; (* 872 *)
  b1 <- (tmp [>>] 25) [|] (tmp [<<] (64 - 25)); (* 873 *)
  b0 -= b1 [+] k1; (* 874 *)
  b1 -= k2 [+] t1; (* 875 *)
  tmp <- b3 [^] b2; (* 876 *)
  b3 <- (tmp [>>] 33) [|] (tmp [<<] (64 - 33)); (* 877 *)
  b2 -= b3 [+] k3 [+] t2; (* 878 *)
  b3 -= k4 [+] EC 1; (* 879 *)
  tmp <- b3 [^] b0; (* 880 *)
  b3 <- (tmp [>>] 5) [|] (tmp [<<] (64 - 5)); (* 881 *)
  b0 -= b3; (* 882 *)
  tmp <- b1 [^] b2; (* 883 *)
  b1 <- (tmp [>>] 37) [|] (tmp [<<] (64 - 37)); (* 884 *)
  b2 -= b1; (* 885 *)
  tmp <- b1 [^] b0; (* 886 *)
  b1 <- (tmp [>>] 23) [|] (tmp [<<] (64 - 23)); (* 887 *)
  b0 -= b1; (* 888 *)
  tmp <- b3 [^] b2; (* 889 *)
  b3 <- (tmp [>>] 40) [|] (tmp [<<] (64 - 40)); (* 890 *)
  b2 -= b3; (* 891 *)
  tmp <- b3 [^] b0; (* 892 *)
  b3 <- (tmp [>>] 52) [|] (tmp [<<] (64 - 52)); (* 893 *)
  b0 -= b3; (* 894 *)
  tmp <- b1 [^] b2; (* 895 *)
  b1 <- (tmp [>>] 57) [|] (tmp [<<] (64 - 57)); (* 896 *)
  b2 -= b1; (* 897 *)
  tmp <- b1 [^] b0; (* 898 *)
  b1 <- (tmp [>>] 14) [|] (tmp [<<] (64 - 14)); (* 899 *)
  b0 -= b1 [+] k0; (* 900 *)
  b1 -= k1 [+] t0; (* 901 *)
  tmp <- b3 [^] b2; (* 902 *)
  b3 <- (tmp [>>] 16) [|] (tmp [<<] (64 - 16)); (* 903 *)
  b2 -= b3 [+] k2 [+] t1; (* 904 *)
  b3 -= k3; (* 905 *)
  (Out 0) <- b0; (* 907 *)
  (Out 1) <- b1; (* 908 *)
  (Out 2) <- b2; (* 909 *)
  (Out 3) <- b3 (* 910 *)
].

