(** Model of runtime/sizeclass.h:83-110 and of calc_sizeclass, make_spanclass, take_pages_count
    (runtime/allocator.c:5-49), take_sizeclass (runtime/memory.h:215-217) and of the object size and
    count computed by mspan_new (runtime/allocator.c:1400-1419). *)
From Verif Require Import Base Zlist.

(** sizeclass.h:83 *)
Definition SIZECLASS_COUNT : Z := 68.

(** sizeclass.h:91-101 *)
Definition class_obj_size : list Z := [
    0; 8; 16; 24; 32; 48; 64; 80; 96; 112; 128; 144; 160; 176; 192; 208; 224;
    240; 256; 288; 320; 352; 384; 416; 448; 480; 512; 576; 640; 704; 768;
    896;
    1024; 1152; 1280; 1408; 1536; 1792; 2048; 2304; 2688; 3072; 3200; 3456;
    4096;
    4864; 5376; 6144; 6528; 6784; 6912; 8192; 9472; 9728; 10240; 10880;
    12288;
    13568; 14336; 16384; 18432; 19072; 20480; 21760; 24576; 27264; 28672;
    32768 ].

(** sizeclass.h:103-109 *)
Definition class_pages_count : list Z := [
    0; 1; 1; 1; 1; 1; 1; 1; 1; 1; 1; 1; 1; 1; 1; 1; 1; 1; 1; 1; 1; 1; 1;
    1; 1;
    1; 1; 1; 1; 1; 1; 1; 1; 1; 1; 2; 1; 2; 1; 2; 1; 3; 2; 3; 1; 3; 2; 3;
    4; 5;
    6; 1; 7; 6; 5; 4; 3; 5; 7; 2; 9; 7; 5; 8; 3; 10; 7; 4 ].

(** runtime.h:86-92: 8192 except on Apple arm64 (16384); the model takes 8192. *)
Definition ALLOC_PAGE_SIZE : Z := 8192.

(** allocator.c:15-34, the binary search; Abort is the failing assert of line 36 *)
Fixpoint search (fuel : nat) (size left right : Z) : res Z :=
  match fuel with
  | O => NoFuel
  | S f =>
      if left <=? right then
        let mid := left + (right - left) / 2 in
        obj_size <- rd class_obj_size mid ;;
        if size <=? obj_size then
          if mid =? 0 then Ok mid
          else
            prev <- rd class_obj_size (mid - 1) ;;
            if prev <? size then Ok mid else search f size left (mid - 1)
        else search f size (mid + 1) right
      else Abort
  end.

(** allocator.c:5-38 *)
Definition calc_sizeclass (size : Z) : res Z :=
  if size =? 1 then Ok 1
  else if size =? 2 then Ok 2
  else if size =? 40 then Ok 5
  else if size =? 48 then Ok 5
  else if size =? 56 then Ok 6
  else if size =? 128 then Ok 10
  else search 100 size 0 (SIZECLASS_COUNT - 1).

(** allocator.c:42-44 *)
Definition make_spanclass (sizeclass no_ptr : Z) : Z := u8 (Z.lor (Z.shiftl sizeclass 1) no_ptr).
(** memory.h:215-217 *)
Definition take_sizeclass (spanclass : Z) : Z := Z.shiftr spanclass 1.
(** allocator.c:46-49 *)
Definition take_pages_count (spanclass : Z) : res Z := rd class_pages_count (take_sizeclass spanclass).

(** allocator.c:1411-1419: (obj_size, obj_count) of a new span; Abort is the assert of line 1418 *)
Definition span_layout (pages_count spanclass : Z) : res (Z * Z) :=
  let sizeclass := take_sizeclass spanclass in
  if sizeclass =? 0 then Ok (pages_count * ALLOC_PAGE_SIZE, 1)
  else
    obj_size <- rd class_obj_size sizeclass ;;
    if 0 <? obj_size then Ok (obj_size, pages_count * ALLOC_PAGE_SIZE / obj_size) else Abort.
