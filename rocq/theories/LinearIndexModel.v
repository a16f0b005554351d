(** Model of [include/dynd/irange.hpp] and of [apply_single_linear_index]
    ([src/dynd/shape_tools.cpp]). *)
From Verif Require Import Base.

(** include/dynd/irange.hpp:39-56 — class irange: m_start, m_finish, m_step. *)
Record irange := mk_irange { r_start : Z; r_finish : Z; r_step : Z }.

(** irange.hpp:43-46 — irange() *)
Definition irange_all : irange := mk_irange INT64_MIN INT64_MAX 1.
(** irange.hpp:48 — irange(idx) *)
Definition irange_idx (i : Z) : irange := mk_irange i i 0.
(** irange.hpp:78 — by(step) *)
Definition irange_by (r : irange) (k : Z) : irange := mk_irange (r_start r) (r_finish r) k.
(** irange.hpp:84 — r < finish *)
Definition irange_lt (r : irange) (b : Z) : irange := mk_irange (r_start r) b (r_step r).
(** irange.hpp:90-93 — r <= last; [last + 1] is signed arithmetic. *)
Definition irange_le (r : irange) (last : Z) : outcome irange :=
  if negb (last =? -1)
  then do f <- add64 last 1; Ok (mk_irange (r_start r) f (r_step r))
  else Ok (mk_irange (r_start r) INT64_MAX (r_step r)).
(** irange.hpp:99 — r > finish *)
Definition irange_gt (r : irange) (b : Z) : irange := mk_irange (r_start r) b (r_step r).
(** irange.hpp:105-108 — r >= last *)
Definition irange_ge (r : irange) (last : Z) : outcome irange :=
  if negb (last =? 0)
  then do f <- sub64 last 1; Ok (mk_irange (r_start r) f (r_step r))
  else Ok (mk_irange (r_start r) INT64_MAX (r_step r)).
(** irange.hpp:120-123 — a < r *)
Definition lt_irange (a : Z) (r : irange) : outcome irange :=
  do s <- add64 a 1; Ok (mk_irange s (r_finish r) (r_step r)).
(** irange.hpp:129 — a <= r *)
Definition le_irange (a : Z) (r : irange) : irange := mk_irange a (r_finish r) (r_step r).
(** irange.hpp:135-138 — a > r *)
Definition gt_irange (a : Z) (r : irange) : outcome irange :=
  do s <- sub64 a 1; Ok (mk_irange s (r_finish r) (r_step r)).
(** irange.hpp:144 — a >= r *)
Definition ge_irange (a : Z) (r : irange) : irange := mk_irange a (r_finish r) (r_step r).

(** The four out parameters of apply_single_linear_index. *)
Record linidx := mk_linidx
  { o_remove : bool; o_start : Z; o_stride : Z; o_size : Z }.

(** src/dynd/shape_tools.cpp:254-466 — apply_single_linear_index.
    Simplification: [error_i]/[error_tp] only decorate the exception message,
    so they are dropped; the exception is identified by its class name. *)
Definition idx_oob {A} : outcome A := Throw "index_out_of_bounds".
Definition rng_oob {A} : outcome A := Throw "irange_out_of_bounds".

(** shape_tools.cpp:259-296: step == 0 *)
Definition single_index (idx n : Z) : outcome linidx :=
  if 0 <=? idx then
    if idx <? n then Ok (mk_linidx true idx 1 1) else idx_oob
  else
    do nn <- neg64 n;
    if nn <=? idx then
      do s <- add64 idx n; Ok (mk_linidx true s 1 1)
    else idx_oob.

(** shape_tools.cpp:297-377: step > 0 *)
Definition pos_start (start n : Z) : outcome Z :=
  if 0 <=? start then
    if start <? n then Ok start else rng_oob
  else
    do nn <- neg64 n;
    if nn <=? start then add64 start n else Ok 0.
Definition pos_end (fin n : Z) : outcome Z :=
  if 0 <=? fin then
    if fin <=? n then Ok fin else Ok n
  else
    do nn <- neg64 n;
    if nn <=? fin then add64 fin n else rng_oob.
Definition pos_range (start0 fin0 step n : Z) : outcome linidx :=
  do start <- pos_start start0 n;
  do fin <- pos_end fin0 n;
  do size <- sub64 fin start;
  if 0 <? size then
    if step =? 1 then Ok (mk_linidx false start 1 size)
    else
      do a <- add64 size step;
      do b <- sub64 a 1;
      do k <- div64 b step;
      Ok (mk_linidx false start step k)
  else Ok (mk_linidx false 0 1 0).

(** shape_tools.cpp:378-465: step < 0 *)
Definition neg_start (start n : Z) : outcome Z :=
  if 0 <=? start then
    if start <? n then Ok start else rng_oob
  else
    do nn <- neg64 n;
    if nn <=? start then add64 start n
    else if start =? INT64_MIN then sub64 n 1
    else rng_oob.
Definition neg_end (fin n : Z) : outcome Z :=
  if 0 <=? fin then
    if fin <? n then Ok fin
    else if fin =? INT64_MAX then Ok (-1)
    else rng_oob
  else
    do nn <- neg64 n;
    if nn <=? fin then add64 fin n else Ok (-1).
Definition neg_range (start0 fin0 step n : Z) : outcome linidx :=
  do start <- neg_start start0 n;
  do fin <- neg_end fin0 n;
  do size <- sub64 start fin;
  if 0 <? size then
    if step =? -1 then Ok (mk_linidx false start (-1) size)
    else
      do ms <- neg64 step;
      do a <- add64 size ms;
      do b <- sub64 a 1;
      do k <- div64 b ms;
      Ok (mk_linidx false start step k)
  else Ok (mk_linidx false 0 1 0).

Definition apply_single_linear_index (r : irange) (n : Z) : outcome linidx :=
  if r_step r =? 0 then single_index (r_start r) n
  else if 0 <? r_step r then pos_range (r_start r) (r_finish r) (r_step r) n
  else neg_range (r_start r) (r_finish r) (r_step r) n.

(** The user-level expressions [a <= irange().by(k) < b] (and the strict /
    non-strict variants): C++ comparison operators associate to the left, so
    the left comparison is applied first.  [sl]/[su]: is the left/right
    comparison strict?  irange.hpp:120-129 then 84-93. *)
Definition range_up (sl : bool) (a : Z) (su : bool) (b k : Z) : outcome irange :=
  do r1 <- (if sl then lt_irange a (irange_by irange_all k)
            else Ok (le_irange a (irange_by irange_all k)));
  if su then Ok (irange_lt r1 b) else irange_le r1 b.
(** [a >= irange().by(k) > b] and variants, for negative steps;
    irange.hpp:135-144 then 99-108. *)
Definition range_down (sl : bool) (a : Z) (su : bool) (b k : Z) : outcome irange :=
  do r1 <- (if sl then gt_irange a (irange_by irange_all k)
            else Ok (ge_irange a (irange_by irange_all k)));
  if su then Ok (irange_gt r1 b) else irange_ge r1 b.
