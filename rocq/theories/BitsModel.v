(** Sector status bitmaps of a cache line.

    Models /repo/src/metadata/metadata_bit.h (all lines) and the wrappers of
    /repo/src/metadata/metadata_status.h that the engines use.

    A bitmap is an [N]; the C type of the bitmap ([u8] .. [u128]) is given by
    its width [w] in bits.  [ENV_BUG_ON] is [None].  Simplified: the raw
    metadata segment (array indexed by cache line) is not part of this file,
    every operation works on the bitmaps of one line. *)
From Coq Require Import NArith Bool.
Open Scope N_scope.

(** metadata_bit.h:10-23 [_get_mask]: 64-bit arithmetic.  [mask <<= start] is
    truncated to 64 bits. *)
Definition get_mask64 (start stop : N) : option N :=
  if (64 <=? start) || (64 <=? stop) || (stop <? start) then None
  else Some (N.land (N.shiftl (N.shiftr (N.ones 64) (start + (63 - stop))) start)
                    (N.ones 64)).

(** metadata_bit.h:32-45 [_get_mask_u128]: same in 128 bits. *)
Definition get_mask128 (start stop : N) : option N :=
  if (128 <=? start) || (128 <=? stop) || (stop <? start) then None
  else Some (N.land (N.shiftl (N.shiftr (N.ones 128) (start + (127 - stop))) start)
                    (N.ones 128)).

(** metadata_bit.h:25-28 and the assignment [type mask = _get_mask_##type]
    (lines 58, 88, 110, ...): the 64-bit mask is converted to the bitmap type. *)
Definition get_mask (w start stop : N) : option N :=
  if w =? 128 then get_mask128 start stop
  else match get_mask64 start stop with
       | None => None
       | Some m => Some (N.land m (N.ones w))
       end.

(** C operator [~] on the bitmap type (only ever used under [&] with a bitmap,
    so the promoted high bits do not matter). *)
Definition cnot (w m : N) : N := N.lxor m (N.ones w).

(** metadata_bit.h:55-83 [_ocf_metadata_test_##what##_##type]. *)
Definition bit_test (w bits start stop : N) (all : bool) : option bool :=
  match get_mask w start stop with
  | None => None
  | Some mask =>
      Some (if all then mask =? N.land bits mask
            else negb (N.land bits mask =? 0))
  end.

(** metadata_bit.h:85-105 [_ocf_metadata_test_out_##what##_##type]. *)
Definition bit_test_out (w bits start stop : N) : option bool :=
  match get_mask w start stop with
  | None => None
  | Some mask => Some (negb (N.land bits (cnot w mask) =? 0))
  end.

(** metadata_bit.h:107-129 [_ocf_metadata_clear_##what##_##type]; the result is
    (return value, new bitmap). *)
Definition bit_clear (w bits start stop : N) : option (bool * N) :=
  match get_mask w start stop with
  | None => None
  | Some mask =>
      let b := N.land bits (cnot w mask) in
      Some (negb (b =? 0), b)
  end.

(** metadata_bit.h:131-152 [_ocf_metadata_set_##what##_##type]. *)
Definition bit_set (w bits start stop : N) : option (bool * N) :=
  match get_mask w start stop with
  | None => None
  | Some mask => Some (negb (bits =? 0), N.lor bits mask)
  end.

(** metadata_bit.h:154-187 [_ocf_metadata_test_and_set_##what##_##type]. *)
Definition bit_test_and_set (w bits start stop : N) (all : bool)
  : option (bool * N) :=
  match get_mask w start stop with
  | None => None
  | Some mask =>
      Some ((if all then mask =? N.land bits mask
             else negb (N.land bits mask =? 0)), N.lor bits mask)
  end.

(** metadata_bit.h:189-222 [_ocf_metadata_test_and_clear_##what##_##type]. *)
Definition bit_test_and_clear (w bits start stop : N) (all : bool)
  : option (bool * N) :=
  match get_mask w start stop with
  | None => None
  | Some mask =>
      Some ((if all then mask =? N.land bits mask
             else negb (N.land bits mask =? 0)), N.land bits (cnot w mask))
  end.

(** metadata_bit.h:225-247 [_ocf_metadata_clear_valid_if_clean_##type]. *)
Definition bit_clear_valid_if_clean (w valid dirty start stop : N)
  : option (bool * N) :=
  match get_mask w start stop with
  | None => None
  | Some mask =>
      let v := N.land valid (N.lor (N.land mask dirty) (cnot w mask)) in
      Some (negb (v =? 0), v)
  end.

(** metadata_bit.h:249-265 [_ocf_metadata_clear_dirty_if_invalid_##type]. *)
Definition bit_clear_dirty_if_invalid (w valid dirty start stop : N)
  : option N :=
  match get_mask w start stop with
  | None => None
  | Some mask =>
      Some (N.land dirty (N.lor (N.land mask valid) (cnot w mask)))
  end.

(** metadata_bit.h:267-283 [_ocf_metadata_check_##type]. *)
Definition bit_check (w valid dirty : N) : bool :=
  N.land dirty (cnot w valid) =? 0.

(** metadata_status.h:170-182 [metadata_clear_dirty_sec_changed]: result is
    (sec_changed, line_is_clean, new dirty bitmap). *)
Definition clear_dirty_sec_changed (w dirty start stop : N)
  : option (bool * bool * N) :=
  match bit_test w dirty start stop false, bit_clear w dirty start stop with
  | Some changed, Some (some_left, d) => Some (changed, negb some_left, d)
  | _, _ => None
  end.

(** metadata_status.h:190-202 [metadata_set_dirty_sec_changed]: result is
    (sec_changed, line_was_dirty, new dirty bitmap). *)
Definition set_dirty_sec_changed (w dirty start stop : N)
  : option (bool * bool * N) :=
  match bit_test w dirty start stop true, bit_set w dirty start stop with
  | Some all, Some (was, d) => Some (negb all, was, d)
  | _, _ => None
  end.

(** metadata_status.h:294-300 [metadata_set_valid_sec_changed]. *)
Definition set_valid_sec_changed (w valid start stop : N) : option (bool * N) :=
  match bit_set w valid start stop with
  | Some (was, v) => Some (negb was, v)
  | None => None
  end.

(** metadata_status.h:326-343 [metadata_clear_valid_sec_changed]: result is
    (return value, line_remains_valid, new valid bitmap).  The whole-line test
    uses sectors 0..w-1 ([ocf_line_end_sector] is the last sector). *)
Definition clear_valid_sec_changed (w valid start stop : N)
  : option (bool * bool * N) :=
  match bit_test w valid 0 (w - 1) false, bit_clear w valid start stop with
  | Some was, Some (remains, v) => Some (was && negb remains, remains, v)
  | _, _ => None
  end.
