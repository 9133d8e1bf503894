(** * Model of crypter/crypter.go and of the small parts of crypter{256,512,1024}.go. *)
From Coq Require Import ZArith List Bool.
From Verif Require Import TfLang TfCode256 TfCode512 TfCode1024.
Import ListNotations.
Open Scope Z_scope.

(** Go run-time outcome: a value, a returned KeySizeError (its integer), or a panic. *)
Inductive outcome (A : Type) :=
| Ret (a : A)
| KeySizeError (n : Z)
| Panic.
Arguments Ret {A} a.
Arguments KeySizeError {A} n.
Arguments Panic {A}.

(** Array element update. *)
Fixpoint set_nth (i : nat) (v : Z) (l : list Z) : list Z :=
  match l, i with
  | [], _ => []
  | _ :: l', O => v :: l'
  | x :: l', S i' => x :: set_nth i' v l'
  end.

(** Which of the three cipherInternal implementations is behind the interface
    (crypter256.go:15, crypter512.go:15, crypter1024.go:15). *)
Inductive variant := V256 | V512 | V1024.
(** CIPHER_QWORDS_N (crypter256.go:11, crypter512.go:11, crypter1024.go:11). *)
Definition qwords (v : variant) : nat :=
  match v with V256 => 4 | V512 => 8 | V1024 => 16 end%nat.
Definition enc_body (v : variant) : list stmt :=
  match v with V256 => encrypt256_body | V512 => encrypt512_body | V1024 => encrypt1024_body end.
Definition dec_body (v : variant) : list stmt :=
  match v with V256 => decrypt256_body | V512 => decrypt512_body | V1024 => decrypt1024_body end.

(** type Cipher struct (crypter.go:47-50) with the struct of the implementation inlined
    (crypter256.go:15-19 and the two siblings): a *Cipher is modelled by its contents. *)
Record cipher := {
  stateSize : Z;
  impl : variant;
  expandedTweak : list Z;
  expandedKey : list Z;
  tmpData1 : list Z;
  tmpData2 : list Z }.

(** KEY_SCHEDULE_CONST (crypter.go:11). *)
Definition KEY_SCHEDULE_CONST : Z := 0x1BD11BDAA9FC1A22.

(** func setTweak (crypter.go:235-241).  [None] as tweak is a nil slice; the result [None]
    is an index panic. *)
Definition setTweak (tweak : option (list Z)) (xt : list Z) : option (list Z) :=
  match tweak with
  | None => Some xt
  | Some (t0 :: t1 :: _) =>
      Some (set_nth 2 (wxor t0 t1) (set_nth 1 t1 (set_nth 0 t0 xt)))
  | Some _ => None
  end.

(** func setKey (crypter.go:243-252): the loop copies key[i] and accumulates the parity;
    an index beyond len(key) panics. *)
Fixpoint setKey_loop (n i : nat) (key xk : list Z) (parity : Z) : option (list Z) :=
  match n with
  | O => Some (set_nth i parity xk)
  | S n' => match nth_error key i with
            | Some k => setKey_loop n' (S i) key (set_nth i k xk) (wxor parity k)
            | None => None
            end
  end.
Definition setKey (key xk : list Z) : option (list Z) :=
  setKey_loop (length xk - 1) 0 key xk KEY_SCHEDULE_CONST.

(** encoding/binary LittleEndian.Uint64 and PutUint64 (Go standard library). *)
Fixpoint le_uint (b : list Z) : Z :=
  match b with [] => 0 | x :: b' => x + 256 * le_uint b' end.
Definition uint64le (b : list Z) : Z := le_uint (firstn 8 b).
Definition put_uint64le (v : Z) : list Z :=
  map (fun i => Z.shiftr v (8 * Z.of_nat i) mod 256) (seq 0 8).

(** new(threefishN): the zero value (crypter256.go:23 etc.). *)
Definition zero_cipher (ss : Z) (v : variant) : cipher := {|
  stateSize := ss; impl := v;
  expandedTweak := repeat 0 3;
  expandedKey := repeat 0 (qwords v + 1);
  tmpData1 := repeat 0 (qwords v);
  tmpData2 := repeat 0 (qwords v) |}.

(** func newThreefishN(key []byte, tweak []uint64) (crypter256.go:22-39, crypter512.go:22-39,
    crypter1024.go:22-39).  [key = None] is the nil slice.  The key slice is only indexed below
    8*qwords, which New guarantees; a shorter key would panic (modelled by the length test).
    The local tmpkey has one word more than needed, as in the source. *)
Definition newThreefish (ss : Z) (v : variant) (key : option (list Z)) (tweak : option (list Z))
  : outcome cipher :=
  let c := zero_cipher ss v in
  match setTweak tweak (expandedTweak c) with
  | None => Panic
  | Some xt =>
      let xk := set_nth (qwords v) KEY_SCHEDULE_CONST (expandedKey c) in
      match key with
      | None => Ret {| stateSize := ss; impl := v; expandedTweak := xt; expandedKey := xk;
                       tmpData1 := tmpData1 c; tmpData2 := tmpData2 c |}
      | Some kb =>
          if (length kb <? 8 * qwords v)%nat then Panic else
          let tmpkey := map (fun i => uint64le (skipn (i * 8) kb)) (seq 0 (qwords v)) ++ [0] in
          match setKey tmpkey xk with
          | None => Panic
          | Some xk' => Ret {| stateSize := ss; impl := v; expandedTweak := xt; expandedKey := xk';
                               tmpData1 := tmpData1 c; tmpData2 := tmpData2 c |}
          end
      end
  end.

(** func newThreefishN_64(key, tweak []uint64) (crypter256.go:42-52 and siblings). *)
Definition newThreefish_64 (ss : Z) (v : variant) (key : list Z) (tweak : option (list Z))
  : outcome cipher :=
  let c := zero_cipher ss v in
  match setTweak tweak (expandedTweak c) with
  | None => Panic
  | Some xt =>
      let xk := set_nth (qwords v) KEY_SCHEDULE_CONST (expandedKey c) in
      match setKey key xk with
      | None => Panic
      | Some xk' => Ret {| stateSize := ss; impl := v; expandedTweak := xt; expandedKey := xk';
                           tmpData1 := tmpData1 c; tmpData2 := tmpData2 c |}
      end
  end.

(** func New (crypter.go:69-84). *)
Definition New (key : list Z) (tweak : option (list Z)) : outcome cipher :=
  let n := Z.of_nat (length key) in
  if n =? 32 then newThreefish (n * 8) V256 (Some key) tweak
  else if n =? 64 then newThreefish (n * 8) V512 (Some key) tweak
  else if n =? 128 then newThreefish (n * 8) V1024 (Some key) tweak
  else KeySizeError n.

(** func New64 (crypter.go:97-112); the state size recorded is len(key)*8 with len in words. *)
Definition New64 (key : list Z) (tweak : option (list Z)) : outcome cipher :=
  let n := Z.of_nat (length key) in
  if n =? 4 then newThreefish_64 (n * 8) V256 key tweak
  else if n =? 8 then newThreefish_64 (n * 8) V512 key tweak
  else if n =? 16 then newThreefish_64 (n * 8) V1024 key tweak
  else KeySizeError n.

(** func NewSize (crypter.go:119-134). *)
Definition NewSize (size : Z) : outcome cipher :=
  if size =? 256 then newThreefish size V256 None None
  else if size =? 512 then newThreefish size V512 None None
  else if size =? 1024 then newThreefish size V1024 None None
  else KeySizeError size.

(** func (c *Cipher) BlockSize (crypter.go:138-140). *)
Definition BlockSize (c : cipher) : Z := stateSize c / 8.

(** A byte slice is a window of one memory: offset and capacity.  (Slice expressions
    s[i:j] are bounded by the capacity, so the length plays no role here.) *)
Record window := { off : nat; cap : nat }.

(** The first loop of Encrypt/Decrypt (crypter.go:157-159, 182-184). *)
Fixpoint load_words (n i : nat) (mem : list Z) (src : window) (tmp : list Z) : option (list Z) :=
  match n with
  | O => Some tmp
  | S n' =>
      if (i * 8 + 8 <=? cap src)%nat
      then load_words n' (S i) mem src (set_nth i (uint64le (skipn (off src + i * 8) mem)) tmp)
      else None
  end.

(** Overwriting a run of bytes. *)
Definition blit (mem : list Z) (at_ : nat) (bs : list Z) : list Z :=
  firstn at_ mem ++ bs ++ skipn (at_ + length bs) mem.

(** The last loop of Encrypt/Decrypt (crypter.go:162-164, 187-189). *)
Fixpoint store_words (n i : nat) (mem : list Z) (dst : window) (tmp : list Z) : option (list Z) :=
  match n with
  | O => Some mem
  | S n' =>
      if (i * 8 + 8 <=? cap dst)%nat
      then store_words n' (S i) (blit mem (off dst + i * 8) (put_uint64le (nth i tmp 0))) dst tmp
      else None
  end.

(** func (c *Cipher) Encrypt / Decrypt (crypter.go:150-190); None is a panic.  tmpin and tmpout
    are the distinct arrays tmpData1 and tmpData2, so [run_body] applies. *)
Definition crypt_bytes (body : variant -> list stmt) (c : cipher) (mem : list Z) (dst src : window)
  : option (cipher * list Z) :=
  let uintLen := Z.to_nat (stateSize c / 64) in
  match load_words uintLen 0 mem src (tmpData1 c) with
  | None => None
  | Some t1 =>
      let t2 := run_body (qwords (impl c)) (body (impl c)) t1 (expandedKey c) (expandedTweak c) in
      let c' := {| stateSize := stateSize c; impl := impl c; expandedTweak := expandedTweak c;
                   expandedKey := expandedKey c; tmpData1 := t1; tmpData2 := t2 |} in
      match store_words uintLen 0 mem dst t2 with
      | None => None
      | Some mem' => Some (c', mem')
      end
  end.
Definition Encrypt := crypt_bytes enc_body.
Definition Decrypt := crypt_bytes dec_body.

(** Execution of an unrolled body when input and output are windows of the same uint64 memory,
    possibly overlapping: input[i] reads mem[s+i], output[i] = e writes mem[d+i] at once. *)
Definition mview (s d : nat) (m : env * list Z) : env :=
  fun v => match v with
           | In i => nth (s + i) (snd m) 0
           | Out i => nth (d + i) (snd m) 0
           | _ => fst m v
           end.
Definition mwrite (s d : nat) (m : env * list Z) (v : var) (z : Z) : env * list Z :=
  match v with
  | In i => (fst m, set_nth (s + i) z (snd m))
  | Out i => (fst m, set_nth (d + i) z (snd m))
  | _ => (upd (fst m) v z, snd m)
  end.
Definition mexec1 (s d : nat) (m : env * list Z) (c : stmt) : env * list Z :=
  let r := mview s d m in
  match c with
  | Assign v e => mwrite s d m v (eval r e)
  | AddAssign v e => mwrite s d m v (wadd (r v) (eval r e))
  | SubAssign v e => mwrite s d m v (wsub (r v) (eval r e))
  end.

(** func (c *Cipher) Encrypt64 / Decrypt64 (crypter.go:201-216): windows (offset, length) of one
    uint64 memory.  Indexing beyond a window's length panics: the bodies read input[0..n-1] first
    and write output[0..n-1], so a window shorter than n panics (None). *)
Definition crypt_words (body : variant -> list stmt) (c : cipher) (mem : list Z) (dst src : nat * nat)
  : option (cipher * list Z) :=
  let n := qwords (impl c) in
  if (snd src <? n)%nat || (snd dst <? n)%nat then None
  else Some (c, snd (fold_left (mexec1 (fst src) (fst dst)) (body (impl c))
                       (call_env [] (expandedKey c) (expandedTweak c), mem))).
Definition Encrypt64 := crypt_words enc_body.
Definition Decrypt64 := crypt_words dec_body.

(** func (c *Cipher) SetTweak / SetKey (crypter.go:222-232). *)
Definition SetTweak (c : cipher) (tweak : option (list Z)) : option cipher :=
  match setTweak tweak (expandedTweak c) with
  | None => None
  | Some xt => Some {| stateSize := stateSize c; impl := impl c; expandedTweak := xt;
                       expandedKey := expandedKey c; tmpData1 := tmpData1 c; tmpData2 := tmpData2 c |}
  end.
Definition SetKey (c : cipher) (key : list Z) : option cipher :=
  match setKey key (expandedKey c) with
  | None => None
  | Some xk => Some {| stateSize := stateSize c; impl := impl c; expandedTweak := expandedTweak c;
                       expandedKey := xk; tmpData1 := tmpData1 c; tmpData2 := tmpData2 c |}
  end.

(** ** crypter/cmd/crypt.go *)

(** base64.URLEncoding (Go standard library, padded, URL alphabet): characters as bytes. *)
Definition b64_char (x : Z) : Z :=
  if x <? 26 then 65 + x else if x <? 52 then 97 + (x - 26) else if x <? 62 then 48 + (x - 52)
  else if x =? 62 then 45 else 95.
Fixpoint b64_encode_go (fuel : nat) (b : list Z) : list Z :=
  match fuel with O => [] | S f =>
  match b with
  | [] => []
  | [a] => [b64_char (a / 4); b64_char (a mod 4 * 16); 61; 61]
  | [a; b] => [b64_char (a / 4); b64_char (a mod 4 * 16 + b / 16); b64_char (b mod 16 * 4); 61]
  | a :: b :: c :: rest =>
      b64_char (a / 4) :: b64_char (a mod 4 * 16 + b / 16) :: b64_char (b mod 16 * 4 + c / 64)
      :: b64_char (c mod 64) :: b64_encode_go f rest
  end end.
Definition b64_encode (b : list Z) : list Z := b64_encode_go (S (length b)) b.

(** type Cryptor (crypt.go:9-14).  Only the cipher matters to its methods; [None] is the nil
    *Cipher left by an ignored constructor error (crypt.go:27). *)
Definition Cryptor := option cipher.
(** func New (crypt.go:18-29): c.key is replaced by []byte(keyAsText), so bits plays no role. *)
Definition cryptor_tweak : list Z := [0x0706050403020100; 0x0F0E0D0C0B0A0908].
Definition Cryptor_New (keyAsText : list Z) (bits : Z) : Cryptor :=
  match New keyAsText (Some cryptor_tweak) with
  | Ret c => Some c
  | _ => None
  end.
(** func (c *Cryptor) Encrypt (crypt.go:31-36).  plaintext and encodedtext are separate arrays:
    one memory text ++ zeros with two windows.  Simplification: each has capacity = length (Go may
    round a []byte(string) allocation up, in which case a few shorter texts would read zero bytes
    instead of panicking). *)
Definition Cryptor_Encrypt (c : Cryptor) (text : list Z) : option (Cryptor * list Z) :=
  match c with
  | None => None
  | Some ci =>
      let n := length text in
      match Encrypt ci (text ++ repeat 0 n) {| off := n; cap := n |} {| off := 0; cap := n |} with
      | None => None
      | Some (ci', mem) => Some (Some ci', b64_encode (skipn n mem))
      end
  end.
(** func (c *Cryptor) Decrypt (crypt.go:38-43): c.cipher.Decrypt(encodedbytes, decodedbytes),
    i.e. dst is the ciphertext.  [decode] stands for base64.URLEncoding.DecodeString with its error
    dropped: any function from text to bytes. *)
Definition Cryptor_Decrypt (decode : list Z -> list Z) (c : Cryptor) (text : list Z)
  : option (Cryptor * list Z) :=
  match c with
  | None => None
  | Some ci =>
      let encodedbytes := decode text in
      let n := length encodedbytes in
      match Decrypt ci (encodedbytes ++ repeat 0 n) {| off := 0; cap := n |} {| off := n; cap := n |} with
      | None => None
      | Some (ci', mem) => Some (Some ci', skipn n mem)
      end
  end.

(** ** Histories of calls on one *Cipher (any sequence of its methods; a panic ends the history). *)
Inductive op :=
| OpSetKey (key : list Z)
| OpSetTweak (tweak : option (list Z))
| OpEncrypt (mem : list Z) (dst src : window)
| OpDecrypt (mem : list Z) (dst src : window)
| OpEncrypt64 (mem : list Z) (dst src : nat * nat)
| OpDecrypt64 (mem : list Z) (dst src : nat * nat).
(** One call: the new object and the caller's memory afterwards (empty for the setters). *)
Definition step (c : cipher) (o : op) : option (cipher * list Z) :=
  match o with
  | OpSetKey k => option_map (fun c' => (c', [])) (SetKey c k)
  | OpSetTweak t => option_map (fun c' => (c', [])) (SetTweak c t)
  | OpEncrypt m d s => Encrypt c m d s
  | OpDecrypt m d s => Decrypt c m d s
  | OpEncrypt64 m d s => Encrypt64 c m d s
  | OpDecrypt64 m d s => Decrypt64 c m d s
  end.
Fixpoint run (c : cipher) (ops : list op) : option cipher :=
  match ops with
  | [] => Some c
  | o :: ops' => match step c o with Some (c', _) => run c' ops' | None => None end
  end.

(** A history of Cryptor calls: [true] is Encrypt, [false] is Decrypt. *)
Fixpoint cryptor_run (decode : list Z -> list Z) (c : Cryptor) (calls : list (bool * list Z)) : option Cryptor :=
  match calls with
  | [] => Some c
  | (e, text) :: calls' =>
      match (if e then Cryptor_Encrypt c text else Cryptor_Decrypt decode c text) with
      | Some (c', _) => cryptor_run decode c' calls'
      | None => None
      end
  end.
