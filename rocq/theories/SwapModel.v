(* Byte swapping: of values, and of the memory of an array. *)
From Verif Require Import Base.
Local Open Scope Z_scope.

(* byteswap_kernels.hpp:16-35: the three overloads of byteswap_value. The results
   of the shifts in the 16 bit one are ints, returned as uint16_t. *)
Definition byteswap16 (v : Z) : Z :=
  Z.lor (Z.shiftl (Z.land v 0xff) 8) (Z.shiftr v 8) mod 2 ^ 16.
Definition byteswap32 (v : Z) : Z :=
  Z.lor (Z.lor (Z.lor (Z.shiftl (Z.land v 0xff) 24) (Z.shiftl (Z.land v 0xff00) 8))
    (Z.shiftr (Z.land v 0xff0000) 8)) (Z.shiftr v 24).
Definition byteswap64 (v : Z) : Z :=
  Z.lor (Z.lor (Z.lor (Z.lor (Z.lor (Z.lor (Z.lor
    (Z.shiftl (Z.land v 0xff) 56) (Z.shiftl (Z.land v 0xff00) 40)) (Z.shiftl (Z.land v 0xff0000) 24))
    (Z.shiftl (Z.land v 0xff000000) 8)) (Z.shiftr (Z.land v 0xff00000000) 8)) (Z.shiftr (Z.land v 0xff0000000000) 24))
    (Z.shiftr (Z.land v 0xff000000000000) 40)) (Z.shiftr v 56).

(* memory: from addresses to bytes *)
Definition mem := Z -> Z.
Definition store (m : mem) (a v : Z) : mem := fun x => if x =? a then v else m x.
(* std::swap *)
Definition swap (m : mem) (a b : Z) : mem := store (store m a (m b)) b (m a).

(* for (size_t j = 0; j < n; ++j) f(j) *)
Fixpoint loop (n : nat) (f : Z -> mem -> mem) (m : mem) : mem :=
  match n with O => m | S n' => f (Z.of_nat n') (loop n' f m) end.

(* byteswap_kernels.hpp:39-63: byteswap_ck::single; size is not negative *)
Definition byteswap_single (size : Z) (dst src : Z) (m : mem) : mem :=
  if src =? dst then loop (Z.to_nat (size / 2)) (fun j m => swap m (dst + j) (dst + size - j - 1)) m
  else loop (Z.to_nat size) (fun j m => store m (dst + j) (m (src + size - j - 1))) m.

(* byteswap_kernels.hpp:65-93: pairwise_byteswap_ck::single *)
Definition pairwise_single (size : Z) (dst src : Z) (m : mem) : mem :=
  if src =? dst then
    let m := loop (Z.to_nat (size / 4)) (fun j m => swap m (dst + j) (dst + size / 2 - j - 1)) m in
    loop (Z.to_nat (size / 4)) (fun j m => swap m (dst + size / 2 + j) (dst + size - j - 1)) m
  else
    let m := loop (Z.to_nat (size / 2)) (fun j m => store m (dst + j) (m (src + size / 2 - j - 1))) m in
    loop (Z.to_nat (size / 2)) (fun j m => store m (dst + size / 2 + j) (m (src + size - j - 1))) m.

(* base_strided_kernel.hpp:56-68: strided, with one source *)
Fixpoint strided (single : Z -> Z -> mem -> mem) (dst ds src ss : Z) (count : nat) (m : mem) : mem :=
  match count with
  | O => m
  | S n => strided single (dst + ds) ds (src + ss) ss n (single dst src m)
  end.

(* byteswap_callable.hpp:20-33: the call nd::byteswap(a, dst = b) of arrays of n
   elements of the given size, contiguous: the size the kernel works with is the
   data size of the whole source type, and the type of dst is not looked at. *)
Definition byteswap_call (n el : Z) (dst src : Z) (m : mem) : mem := byteswap_single (n * el) dst src m.
