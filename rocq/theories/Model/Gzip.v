(** base/utils/gzip/gzip_utils.cc: compression and decompression of strings with zlib.

    zlib is third-party; the model assumes of it: deflate with Z_FINISH writes the encoding of the input it is given, as much as fits,
    and reports Z_STREAM_END when all of it is written; inflate writes what the input decodes to, as much as fits, and then reports
    Z_STREAM_END, an error, or (when the input ended before the stream did) Z_BUF_ERROR in a call without progress. If the
    output is exactly full, the end may be reported in the next call only ([late]). avail_in and avail_out are 32 bits wide. *)
From Verif.Model Require Import Common.
Local Open Scope Z_scope.

(** What the bytes decode to: all of a stream, a stream that is cut off, or a broken one (with zlib's code). *)
Inductive dstatus := DEnd | DCut | DBad (code : Z).
Record zlib := Zlib { encode : Z -> list Z -> list Z; decode : list Z -> list Z * dstatus; late : bool }.
(** INITSTRINGSIZE, 34. *)
Definition kInit : nat := Z.to_nat 16384.
(** std::string::resize(n, '\0'). *)
Definition resize (n : nat) (s : list Z) : list Z := firstn n s ++ repeat 0 (n - length s).
(** A length converted to zlib's uInt. *)
Definition uint (n : nat) : nat := Z.to_nat (Z.of_nat n mod 2 ^ 32).
Definition Z_STREAM_END : Z := 1.
Definition Z_BUF_ERROR : Z := -5.
(** The loops 56-75, 105-124, 149-169, 198-219: [p] is what zlib has to write in all and [fin] what it reports at the end;
    [out], [k]: outstring and total_out. None: still looping after [fuel] rounds. *)
Fixpoint zloop (fuel : nat) (lt : bool) (p : list Z) (fin : Z) (out : list Z) (k : nat) : option (list Z * nat * Z) :=
  match fuel with
  | O => None
  | S fuel =>
      let avail := uint (length out - k) in
      let w := Nat.min avail (length p - k) in
      let out := firstn k out ++ firstn w (skipn k p) ++ skipn (k + w) out in
      let k := (k + w)%nat in
      let held := (0 <? Z.of_nat w) && ((lt && Nat.eqb w avail) || (fin =? Z_BUF_ERROR)) in
      let ret := if Nat.eqb k (length p) && negb held then fin else if Nat.eqb w 0 then Z_BUF_ERROR else 0 in
      if ret =? Z_STREAM_END then Some (out, k, ret)
      else
        let out := if Nat.eqb (length out) k then resize (2 * length out) out else out in
        if ret =? 0 then zloop fuel lt p fin out k else Some (out, k, ret)
  end.
(** No call needs more than this many rounds (proved). *)
Definition rounds : nat := 64.
(** zs.avail_in = str.size(), truncated to 32 bits. For strings of 2^32 bytes and more this is what the first call sees; the model is
    exact for them if that call ends the stream. *)
Definition seen (s : list Z) : list Z := firstn (uint (length s)) s.

(** 40-85 compress_gzip and 87-131 compress_deflate (they differ in the format only): result code and outstring, which was [old]. *)
Definition compress (z : zlib) (s old : list Z) (level : Z) : option (Z * list Z) :=
  if (level <? -1) || (9 <? level) then Some (-1, old)
  else match zloop rounds (late z) (encode z level (seen s)) Z_STREAM_END (resize kInit old) 0 with
    | None => None
    | Some (out, k, ret) => if ret =? Z_STREAM_END then Some (0, resize k out) else Some (-1, out)
    end.
Definition fin_of (d : dstatus) : Z := match d with DEnd => Z_STREAM_END | DCut => Z_BUF_ERROR | DBad c => c end.
Definition inflate_loop (z : zlib) (s old : list Z) : option (list Z * nat * Z) :=
  let '(p, d) := decode z (seen s) in zloop rounds (late z) p (fin_of d) (resize kInit old) 0.
(** 133-181 decompress_deflate. *)
Definition decompress_deflate (z : zlib) (s old : list Z) : option (Z * list Z) :=
  match inflate_loop z s old with
  | None => None
  | Some (out, k, ret) => if ret =? Z_STREAM_END then Some (0, resize k out) else Some (- ret, out)
  end.
(** 183-233 decompress_gzip: outstring is not cut to total_out. *)
Definition decompress_gzip (z : zlib) (s old : list Z) : option (Z * list Z) :=
  match inflate_loop z s old with
  | None => None
  | Some (out, k, ret) => if ret =? Z_STREAM_END then Some (0, out) else Some (-1, out)
  end.
(** Their use in the HTTP codec (http_codec_service.cc:239,263,270; parser_context.h:214,222,248,258): a fresh output string, the best
    compression, the string if the result is 0. *)
Definition to_option (r : option (Z * list Z)) : option (list Z) := match r with Some (0, s) => Some s | _ => None end.
Definition http_compress (z : zlib) (s : list Z) : option (list Z) := to_option (compress z s [] 9).
Definition http_gunzip (z : zlib) (s : list Z) : option (list Z) := to_option (decompress_gzip z s []).
Definition http_inflate (z : zlib) (s : list Z) : option (list Z) := to_option (decompress_deflate z s []).
