(** Proofs about lossless assignment. *)
From Coq Require Import QArith Qpower.
From Verif Require Import Base TypesModel PromoteModel PromoteSpec.
Open Scope Z_scope.

Lemma power_nonneg e : 0 <= e -> (Qpower 2 e == inject_Z (2 ^ e))%Q.
Proof. intros H. rewrite (Qpower.Zpower_Qpower 2 e H). reflexivity. Qed.
Lemma inject_inj x y : (inject_Z x == inject_Z y)%Q -> x = y.
Proof. unfold Qeq. cbn. lia. Qed.
Lemma format_int p emin emax z : Z.abs z < 2 ^ p -> emin <= 0 <= emax -> in_format p emin emax (Num (inject_Z z)).
Proof. intros A B. exists z, 0. split; auto. split; auto. rewrite power_nonneg by lia. change (2 ^ 0) with 1. ring. Qed.
Lemma in_format_eq p emin emax q q' : (q == q')%Q -> in_format p emin emax (Num q') -> in_format p emin emax (Num q).
Proof. intros E (m & e & A & B & C). exists m, e. split; auto. split; auto. now rewrite E. Qed.
(** An odd number with more than [p] bits has no representation. *)
Lemma odd_not p emin emax z : 0 <= p -> Z.odd z = true -> 2 ^ p <= Z.abs z -> ~ in_format p emin emax (Num (inject_Z z)).
Proof.
  intros P O L (m & e & A & _ & C). destruct (Z.le_gt_cases 0 e) as [E|E].
  - rewrite power_nonneg, <- inject_Z_mult in C by lia. apply inject_inj in C. subst z. destruct (Z.eq_dec e 0) as [->|NE].
    + change (2 ^ 0) with 1 in L. lia.
    + rewrite Z.odd_mul in O. replace (Z.odd (2 ^ e)) with false in O; [rewrite andb_false_r in O; discriminate|].
      symmetry. replace e with (Z.succ (e - 1)) by lia. rewrite Z.pow_succ_r by lia. now rewrite Z.odd_mul.
  - assert (X : (inject_Z z * Qpower 2 (- e) == inject_Z m)%Q).
    { rewrite C, <- Qmult_assoc, <- Qpower_plus by discriminate. replace (e + - e) with 0 by lia. change (Qpower 2 0) with 1%Q. ring. }
    rewrite power_nonneg, <- inject_Z_mult in X by lia. apply inject_inj in X. subst m.
    assert (1 <= 2 ^ (- e)) by (apply (Z.pow_le_mono_r 2 0 (- e)); lia). rewrite Z.abs_mul in A. assert (Z.abs z * 1 <= Z.abs z * Z.abs (2 ^ (- e))) by (apply Z.mul_le_mono_nonneg_l; lia). lia.
Qed.
Lemma half_not_int lo hi : ~ in_range lo hi (Num (1 # 2)).
Proof. intros (z & _ & E). unfold Qeq in E. cbn in E. lia. Qed.
Lemma half_in p emin emax : 1 <= p -> emin <= -1 <= emax -> in_format p emin emax (Num (1 # 2)).
Proof. intros A B. exists 1, (-1). split; [|split; [auto|reflexivity]]. apply (Z.lt_le_trans _ (2 ^ 1)); [reflexivity|]. apply Z.pow_le_mono_r; lia. Qed.
Lemma int_in lo hi z : lo <= z <= hi -> in_range lo hi (Num (inject_Z z)).
Proof. intros H. exists z. split; [auto|reflexivity]. Qed.
Lemma int_not lo hi z : (z <? lo) || (hi <? z) = true -> ~ in_range lo hi (Num (inject_Z z)).
Proof. intros H (y & A & B). apply inject_inj in B. subst. lia. Qed.
Lemma zero_zero : is_zero (Num 0). Proof. reflexivity. Qed.
Lemma one_not_zero : ~ is_zero (Num 1). Proof. intros H. discriminate H. Qed.

(** Inclusions. *)
Lemma range_range lo hi lo' hi' v : lo' <= lo -> hi <= hi' -> in_range lo hi v -> in_range lo' hi' v.
Proof. destruct v; cbn [in_range]; auto. intros A B (z & C & D). exists z. split; [lia|auto]. Qed.
Lemma range_format lo hi p emin emax v : - 2 ^ p < lo -> hi < 2 ^ p -> emin <= 0 <= emax -> in_range lo hi v -> in_format p emin emax v.
Proof. destruct v as [q|]; [|intros _ _ _ []]. intros A B C (z & D & E). eapply in_format_eq; [exact E|]. apply format_int; lia. Qed.
Lemma format_format p emin emax p' emin' emax' v : 2 ^ p <= 2 ^ p' -> emin' <= emin -> emax <= emax' -> in_format p emin emax v -> in_format p' emin' emax' v.
Proof. destruct v as [q|]; auto. intros A B C (m & e & D & E & F). exists m, e. split; [lia|]. split; [lia|auto]. Qed.
Lemma zero_format p emin emax v : 0 < 2 ^ p -> emin <= 0 <= emax -> is_zero v -> in_format p emin emax v.
Proof. destruct v as [q|]; [|intros _ _ []]. intros A B E. eapply in_format_eq; [exact E|]. apply (format_int _ _ _ 0); auto. Qed.

Ltac side := first [solve [vm_compute; congruence] | solve [split; vm_compute; congruence] | reflexivity].
Ltac incl :=
  intros re im [R I]; split;
  [ first [exact R | eapply range_range; [| |exact R]; side | eapply range_format; [| | |exact R]; side | eapply format_format; [| | |exact R]; side]
  | first [exact I | eapply format_format; [| | |exact I]; side | eapply zero_format; [| |exact I]; side] ].
Ltac mem :=
  split; [first [apply int_in; side | apply half_in; side | apply format_int; side | apply (format_int _ _ _ 0); side] | first [exact zero_zero | apply (format_int _ _ _ 0); side | apply (format_int _ _ _ 1); side]].
Ltac refute re im :=
  let H := fresh in intros H; specialize (H re im); cbv beta in H;
  match type of H with ?A -> ?C => 
    let MEM := fresh in assert (MEM : A) by mem; specialize (H MEM); clear MEM; destruct H as [R I];
    first [ exact (one_not_zero I) | revert R; apply half_not_int | revert R; apply int_not; side | revert R; apply odd_not; side ] end.

Theorem lossless_exact dst src : arithmetic dst -> arithmetic src -> exists r, lossless_builtin dst src = Ok r /\ (r = true <-> forall re im, holds src re im -> holds dst re im).
Proof.
  intros (D1 & D2) (S1 & S2).
  destruct dst; try congruence; destruct src; try congruence; clear D1 D2 S1 S2;
  (eexists; split; [reflexivity|]); cbn [holds range format base_kind data_size];
  match goal with |- ?x = true <-> _ => let y := eval vm_compute in x in change x with y end;
  first [ split; [intros _; incl|reflexivity]
        | split; [discriminate|]; intros H; exfalso; revert H;
          first [ refute (Num 0) (Num 1) | refute (Num (1 # 2)) (Num 0) | refute (Num (inject_Z (-1))) (Num 0) | refute (Num (inject_Z 2)) (Num 0)
                | refute (Num (inject_Z (2 ^ 8 - 1))) (Num 0) | refute (Num (inject_Z (2 ^ 15 - 1))) (Num 0) | refute (Num (inject_Z (2 ^ 31 - 1))) (Num 0) | refute (Num (inject_Z (2 ^ 53 - 1))) (Num 0) | refute (Num (inject_Z (2 ^ 24 - 1))) (Num 0)
                | refute (Num (inject_Z (2 ^ 16 - 1))) (Num 0) | refute (Num (inject_Z (2 ^ 32 - 1))) (Num 0) | refute (Num (inject_Z (2 ^ 63 - 1))) (Num 0) | refute (Num (inject_Z (2 ^ 64 - 1))) (Num 0) | refute (Num (inject_Z (2 ^ 127 - 1))) (Num 0) | refute (Num (inject_Z (2 ^ 128 - 1))) (Num 0) | refute (Num (inject_Z (2 ^ 113 - 1))) (Num 0) ] ].
Qed.
