(** Texts in fixed-size buffers. *)
From Verif Require Import Base EncodingModel EncodingSpec.
Open Scope Z_scope.

(** [holds e cps buf]: the buffer has the text and, if there is room, a zero unit
    after it. *)
Definition holds (e : enc) (cps buf : list Z) : Prop :=
  ~ In 0 cps /\ exists bs pad, text (encodes e) cps bs /\ buf = bs ++ pad /\
    (pad = [] \/ exists rest, pad = repeat 0 (char_size e) ++ rest).
(** [stores e size cps buf]: the encoded text, then zeros up to the size. *)
Definition stores (e : enc) (size : Z) (cps buf : list Z) : Prop :=
  exists bs, text (encodes e) cps bs /\ Z.of_nat (List.length bs) <= size /\
    buf = bs ++ repeat 0 (Z.to_nat (size - Z.of_nat (List.length bs))).
(** The text can be written in the encoding, with [size] bytes at most. *)
Definition fits_in (e : enc) (size : Z) (cps : list Z) : Prop :=
  exists bs, text (encodes e) cps bs /\ Z.of_nat (List.length bs) <= size.
(** Cut: [pre] is the longest prefix of the text that fits. *)
Definition cut (e : enc) (size : Z) (cps pre : list Z) : Prop :=
  exists post, cps = pre ++ post /\ fits_in e size pre /\ (forall cp post', post = cp :: post' -> ~ fits_in e size (pre ++ [cp])).
(** A size that is a number of units. *)
Definition units (e : enc) (size : Z) : Prop := exists k, 0 <= k /\ size = k * Z.of_nat (char_size e).
(** What a call that does not check writes for a code point: '?' if the encoding
    does not have it. *)
Definition replaced (e : enc) (cp cp' : Z) : Prop :=
  ((exists bs, encodes e cp bs) /\ cp' = cp) \/ ((forall bs, ~ encodes e cp bs) /\ cp' = 63).
