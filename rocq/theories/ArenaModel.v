(** Model of the arenas of [include/dynd/memblock/pod_memory_block.hpp],
    [zeroinit_memory_block.hpp] and [objectarray_memory_block.hpp], and of
    [memmap_memory_block.hpp]'s clipping.

    Memory is a byte at every address plus the list of live malloc blocks (base
    and size) of the arena.  malloc takes its answer from the environment. *)
From Verif Require Import Base.

Record arena := mkar {
  mem : Z -> Z;
  blocks : list (Z * Z);      (** live malloc blocks of this arena *)
  handles : list Z;           (** m_memory_handles *)
  mbegin : Z; mcur : Z; mend : Z; total : Z }.

(** The environment's answer to one malloc: NULL, or an address and the bytes
    found there. *)
Definition answer := option (Z * (Z -> Z)).
Definition apart (a n b m : Z) : bool := (a + Z.max n 1 <=? b) || (b + Z.max m 1 <=? a).
(** A malloc answer the C library may give: not NULL, 16-byte aligned, inside the
    address space and apart from every live block.  Otherwise malloc is taken to
    have failed. *)
Definition malloc (blocks : list (Z * Z)) (ans : answer) (n : Z) : option (Z * (Z -> Z)) :=
  match ans with
  | Some (a, g) => if (0 <? a) && (a mod 16 =? 0) && (0 <=? n) && (a + n <? 2 ^ 62) && forallb (fun b => apart a n (fst b) (snd b)) blocks
                   then Some (a, g) else None
  | None => None
  end.
Definition inside (x a n : Z) : bool := (a <=? x) && (x <? a + n).
(** free of a pointer that is a live block. *)
Fixpoint free_block (bl : list (Z * Z)) (p : Z) : outcome (list (Z * Z)) :=
  match bl with
  | [] => UB
  | b :: bl' => if fst b =? p then Ok bl' else do r <- free_block bl' p; Ok (b :: r)
  end.
(** [n] bytes at [p] lie in one live block. *)
Definition valid (bl : list (Z * Z)) (p n : Z) : bool := existsb (fun b => (fst b <=? p) && (p + n <=? fst b + snd b)) bl.
(** memset and memcpy, the length a size_t. *)
Definition memset0 (s : arena) (p n : Z) : outcome arena :=
  if n =? 0 then Ok s else if valid (blocks s) p n then
    Ok (mkar (fun x => if inside x p n then 0 else mem s x) (blocks s) (handles s) (mbegin s) (mcur s) (mend s) (total s)) else UB.
Definition memcpy (s : arena) (dst src n : Z) : outcome arena :=
  if n =? 0 then Ok s else if valid (blocks s) dst n && valid (blocks s) src n && ((dst + n <=? src) || (src + n <=? dst)) then
    Ok (mkar (fun x => if inside x dst n then mem s (src + (x - dst)) else mem s x) (blocks s) (handles s) (mbegin s) (mcur s) (mend s) (total s)) else UB.

(** pod_memory_block.hpp:44-56, zeroinit_memory_block.hpp:51-63.  The flag is
    false when bad_alloc was thrown; [m_memory_begin] is then already NULL. *)
Definition append_memory (s : arena) (ans : answer) (n : Z) : arena * bool :=
  match malloc (blocks s) ans n with
  | None => (mkar (mem s) (blocks s) (handles s) 0 (mcur s) (mend s) (total s), false)
  | Some (a, g) =>
      (mkar (fun x => if inside x a n then g x else mem s x) (blocks s ++ [(a, n)]) (handles s ++ [a]) a a (a + n) (total s + n), true)
  end.
Definition set_cur (s : arena) (c : Z) : arena := mkar (mem s) (blocks s) (handles s) (mbegin s) c (mend s) (total s).
Definition set_total (s : arena) (t : Z) : arena := mkar (mem s) (blocks s) (handles s) (mbegin s) (mcur s) (mend s) t.

Section Arena.
Variables (data_size data_alignment : Z).

(** Result of a call: the new state and the returned pointer, or the state left
    by bad_alloc. *)
Definition result := outcome (arena * option Z).

(** pod_memory_block.hpp:58-82, zeroinit_memory_block.hpp:65-90: alloc up to the
    memset. *)
Definition align_up (p : Z) : Z := Z.land (p + data_alignment - 1) (Z.lnot (data_alignment - 1)).
Definition alloc_raw (s : arena) (ans : answer) (count : Z) : arena * option Z :=
  let size_bytes := count * data_size in
  let b := align_up (mcur s) in
  if b + size_bytes >? mend s then
    let s1 := set_total s (total s - (mend s - mcur s)) in
    let (s2, ok) := append_memory s1 ans (Z.max (total s1) size_bytes) in
    if ok then (set_cur s2 (mbegin s2 + size_bytes), Some (mbegin s2)) else (s2, None)
  else (set_cur s (b + size_bytes), Some b).
Definition pod_alloc (s : arena) (ans : answer) (count : Z) : result := Ok (alloc_raw s ans count).
(** zeroinit_memory_block.hpp:85-86 adds memset(begin, 0, end - begin). *)
Definition zero_alloc (s : arena) (ans : answer) (count : Z) : result :=
  match alloc_raw s ans count with
  | (s1, Some b) => do s2 <- memset0 s1 b (count * data_size); Ok (s2, Some b)
  | (s1, None) => Ok (s1, None)
  end.

(** pod_memory_block.hpp:84-116.  [inout_end] is the address of m_memory_current,
    so after append_memory it reads the new chunk's begin. *)
Definition pod_resize (s : arena) (ans : answer) (p count : Z) : result :=
  let size_bytes := count * data_size in
  if p + size_bytes <=? mend s then Ok (set_cur s (p + size_bytes), Some p)
  else
    let old_current := p in
    let old_end := mcur s in
    let (s1, ok) := append_memory s ans (Z.max (total s) size_bytes) in
    if ok then
      do s2 <- memcpy s1 (mbegin s1) p (u64 (mcur s1 - p));
      Ok (set_total (set_cur s2 (mbegin s2 + size_bytes)) (total s2 - (old_end - old_current)), Some (mbegin s2))
    else Ok (s1, None).
(** zeroinit_memory_block.hpp:92-131.  In place, m_memory_current is set to [end]
    before [end > *inout_end] is tested, and *inout_end is m_memory_current. *)
Definition zero_resize (s : arena) (ans : answer) (p count : Z) : result :=
  let size_bytes := count * data_size in
  let e := p + size_bytes in
  if e <=? mend s then
    let s1 := set_cur s e in
    do s2 <- (if e >? mcur s1 then memset0 s1 (mcur s1) (e - mcur s1) else Ok s1);
    Ok (set_cur s2 e, Some p)
  else
    let old_current := p in
    let old_end := mcur s in
    let old_size := mcur s - p in
    let (s1, ok) := append_memory s ans (Z.max (total s) size_bytes) in
    if ok then
      do s2 <- memcpy s1 (mbegin s1) p (u64 old_size);
      let s3 := set_cur s2 (mbegin s2 + size_bytes) in
      do s4 <- memset0 s3 (mbegin s3 + old_size) (u64 (size_bytes - old_size));
      Ok (set_total s4 (total s4 - (old_end - old_current)), Some (mbegin s4))
    else Ok (s1, None).

(** pod_memory_block.hpp:118-126, zeroinit_memory_block.hpp:133-140. *)
Definition finalize (s : arena) : arena :=
  let t := if mcur s <? mend s then total s - (mend s - mcur s) else total s in
  mkar (mem s) (blocks s) (handles s) 0 0 0 t.
(** pod_memory_block.hpp:128-143, zeroinit_memory_block.hpp:142-157. *)
Fixpoint free_all (bl : list (Z * Z)) (hs : list Z) : outcome (list (Z * Z)) :=
  match hs with [] => Ok bl | h :: hs => do bl <- free_block bl h; free_all bl hs end.
Definition reset (s : arena) : outcome arena :=
  do (bl, hs) <- (match rev (handles s) with
                  | h :: ((_ :: _) as t) => do bl <- free_all (blocks s) (rev t); Ok (bl, [h])
                  | _ => Ok (blocks s, handles s)
                  end);
  Ok (mkar (mem s) bl hs (mbegin s) (mbegin s) (mend s) (mend s - mbegin s)).
(** The destructors, pod_memory_block.hpp:34-38, zeroinit_memory_block.hpp:41-45. *)
Definition destroy (s : arena) : outcome (list (Z * Z)) := free_all (blocks s) (handles s).
(** The constructors, pod_memory_block.hpp:26-29, zeroinit_memory_block.hpp:34-39. *)
Definition create (ans : answer) (m : Z -> Z) (initial : Z) : arena * bool := append_memory (mkar m [] [] 0 0 0 0) ans initial.
End Arena.

(** memmap_memory_block.hpp:46-65 clip_begin_end. *)
Definition clip_begin_end (size b e : Z) : outcome (Z * Z) :=
  do b' <- (if b <? 0 then do x <- add64 b size; Ok (if x <? 0 then 0 else x) else Ok (if b >=? size then size else b));
  do e' <- (if e <? 0 then do x <- add64 e size; Ok (if x <=? b' then b' else x)
            else Ok (if e <=? b' then b' else if e >=? size then size else e));
  Ok (b', e').
(** memmap_memory_block.hpp:199-217, 226: where the file is mapped (posix). *)
Definition map_file (filesize pageSize b e : Z) : outcome (Z * Z * Z * Z * Z) :=
  do (b', e') <- clip_begin_end filesize b e;
  let mapbegin := b' / pageSize * pageSize in
  let mapoffset := b' - mapbegin in
  Ok (mapbegin, e' - mapbegin, mapoffset, e' - b', e' - b' + mapoffset).
