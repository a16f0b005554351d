(** Proofs about the encoding model (C09-C12, C46). *)
From Verif Require Import Base EncodingModel EncodingSpec.

(** * Bit operations as arithmetic *)
Lemma land_ff b : byte b -> Z.land 0xff b = b.
Proof. intros H. unfold byte in H. rewrite Z.land_comm. change 0xff with (2 ^ 8 - 1). rewrite land_mask by lia. apply Z.mod_small. lia. Qed.

Lemma is_trail_iff b : byte b -> is_trail b = (128 <=? b) && (b <? 192).
Proof.
  intros H. unfold is_trail. rewrite land_ff, Z.shiftr_div_pow2 by (auto; lia). unfold byte in H. change (2 ^ 6) with 64.
  destruct (Z.leb_spec 128 b), (Z.ltb_spec b 192); cbn [andb]; apply Bool.eq_true_iff_eq; rewrite Z.eqb_eq; split; intros; try lia; try discriminate; Z.div_mod_to_equations; lia.
Qed.

Lemma seqlen_eq b : byte b -> sequence_length b =
  if b <? 128 then 1 else if b <? 192 then 0 else if b <? 224 then 2 else if b <? 240 then 3 else if b <? 248 then 4 else 0.
Proof.
  intros H. unfold byte in H. unfold sequence_length. rewrite !Z.shiftr_div_pow2 by lia.
  change (2 ^ 5) with 32; change (2 ^ 4) with 16; change (2 ^ 3) with 8.
  assert (H5 : b / 32 * 32 <= b < b / 32 * 32 + 32) by (Z.div_mod_to_equations; lia).
  assert (H4 : b / 16 * 16 <= b < b / 16 * 16 + 16) by (Z.div_mod_to_equations; lia).
  assert (H3 : b / 8 * 8 <= b < b / 8 * 8 + 8) by (Z.div_mod_to_equations; lia).
  destruct (Z.ltb_spec b 128); [reflexivity|].
  destruct (Z.eqb_spec (b / 32) 6); destruct (Z.eqb_spec (b / 16) 14); destruct (Z.eqb_spec (b / 8) 30);
    destruct (Z.ltb_spec b 192); destruct (Z.ltb_spec b 224); destruct (Z.ltb_spec b 240); destruct (Z.ltb_spec b 248); try reflexivity; lia.
Qed.

Lemma land_3f b : 128 <= b < 192 -> Z.land b 0x3f = b - 128.
Proof. intros. change 0x3f with (2 ^ 6 - 1). rewrite land_mask by lia. change (2 ^ 6) with 64. symmetry; apply (Z.mod_unique_pos _ _ 2); lia. Qed.

Lemma seq2_lead b : 192 <= b < 224 -> Z.land (Z.shiftl b 6) 0x7ff = 64 * (b - 192).
Proof. intros. change 0x7ff with (2 ^ 11 - 1). rewrite land_mask, Z.shiftl_mul_pow2 by lia. symmetry; apply (Z.mod_unique_pos _ _ 6); lia. Qed.
Lemma seq3_lead b : 224 <= b < 240 -> Z.land (Z.shiftl b 12) 0xffff = 4096 * (b - 224).
Proof. intros. change 0xffff with (2 ^ 16 - 1). rewrite land_mask, Z.shiftl_mul_pow2 by lia. symmetry; apply (Z.mod_unique_pos _ _ 14); lia. Qed.
Lemma seq4_lead b : 240 <= b < 248 -> Z.land (Z.shiftl b 18) 0x1fffff = 262144 * (b - 240).
Proof. intros. change 0x1fffff with (2 ^ 21 - 1). rewrite land_mask, Z.shiftl_mul_pow2 by lia. symmetry; apply (Z.mod_unique_pos _ _ 30); lia. Qed.
Lemma mid6 b : 128 <= b < 192 -> Z.land (Z.shiftl b 6) 0xfff = 64 * (b - 128).
Proof. intros. change 0xfff with (2 ^ 12 - 1). rewrite land_mask, Z.shiftl_mul_pow2 by lia. symmetry; apply (Z.mod_unique_pos _ _ 2); lia. Qed.
Lemma mid12 b : 128 <= b < 192 -> Z.land (Z.shiftl b 12) 0x3ffff = 4096 * (b - 128).
Proof. intros. change 0x3ffff with (2 ^ 18 - 1). rewrite land_mask, Z.shiftl_mul_pow2 by lia. symmetry; apply (Z.mod_unique_pos _ _ 2); lia. Qed.

Lemma valid_iff cp : 0 <= cp -> is_code_point_valid cp = true <-> scalar cp.
Proof. intros H. unfold is_code_point_valid, is_surrogate, scalar. lia. Qed.

(** * A flat description of the UTF-8 decoder *)
(** Every byte buffer is of one of these shapes. *)
Lemma is_trail_t b : byte b -> is_trail b = true -> 128 <= b < 192.
Proof. intros H. rewrite is_trail_iff by auto. lia. Qed.
Lemma is_trail_f b : byte b -> is_trail b = false -> ~ (128 <= b < 192).
Proof. intros H. rewrite is_trail_iff by auto. lia. Qed.

(** What get_sequence can do on a buffer whose first byte announces length
    [len]: either it finds the whole sequence [bs], or it fails after moving
    on by at least one byte. *)
Definition assembled (len : Z) (bs : list Z) (cp : Z) : Prop :=
  match bs with
  | [b0] => len = 1 /\ 0 <= b0 < 128 /\ cp = b0
  | [b0; b1] => len = 2 /\ 192 <= b0 < 224 /\ 128 <= b1 < 192 /\ cp = 64 * (b0 - 192) + (b1 - 128)
  | [b0; b1; b2] => len = 3 /\ 224 <= b0 < 240 /\ 128 <= b1 < 192 /\ 128 <= b2 < 192 /\
      cp = 4096 * (b0 - 224) + 64 * (b1 - 128) + (b2 - 128)
  | [b0; b1; b2; b3] => len = 4 /\ 240 <= b0 < 248 /\ 128 <= b1 < 192 /\ 128 <= b2 < 192 /\ 128 <= b3 < 192 /\
      cp = 262144 * (b0 - 240) + 4096 * (b1 - 128) + 64 * (b2 - 128) + (b3 - 128)
  | _ => False
  end.

Ltac inv_bytes := repeat match goal with H : bytes (_ :: _) |- _ => inversion H; clear H; subst | H : Forall byte (_ :: _) |- _ => inversion H; clear H; subst end.

Lemma get_sequence_spec b0 r : bytes (b0 :: r) -> sequence_length b0 <> 0 ->
  (exists bs cp r', get_sequence (sequence_length b0) (b0 :: r) = (UTF8_OK, cp, r') /\
     b0 :: r = bs ++ tl r' /\ r' <> [] /\ (exists pre x, bs = pre ++ [x] /\ b0 :: r = pre ++ r') /\ assembled (sequence_length b0) bs cp) \/
  (exists e cp r' pre, get_sequence (sequence_length b0) (b0 :: r) = (e, cp, r') /\ e <> UTF8_OK /\
     b0 :: r = pre ++ r' /\ pre <> [] /\ (forall bs rest cp', b0 :: r = bs ++ rest -> ~ assembled (sequence_length b0) bs cp')).
Proof.
  intros HB HL. inversion HB as [|? ? Hb0 HR0]; subst. pose proof (seqlen_eq b0 Hb0) as HS. pose proof Hb0 as Hb0'. unfold byte in Hb0'.
  destruct (Z.ltb_spec b0 128).
  { rewrite HS. left. exists [b0], b0, (b0 :: r). unfold get_sequence. cbn [Z.eqb Pos.eqb get_sequence_1]. rewrite land_ff by auto.
    split; [reflexivity|split; [reflexivity|split; [discriminate|split; [exists [], b0; auto|cbn; lia]]]]. }
  destruct (Z.ltb_spec b0 192); [congruence|].
  assert (NA : forall x, is_trail x = false -> byte x -> ~ 128 <= x < 192) by (intros; apply is_trail_f; auto).
  destruct (Z.ltb_spec b0 224); [|destruct (Z.ltb_spec b0 240); [|destruct (Z.ltb_spec b0 248); [|congruence]]];
    rewrite HS; unfold get_sequence; cbn [Z.eqb Pos.eqb].
  - unfold get_sequence_2. rewrite land_ff by auto.
    destruct r as [|b1 r]; cbn [increase_safely].
    { right. exists NOT_ENOUGH_ROOM, b0, [], [b0]. split; [reflexivity|split; [discriminate|split; [reflexivity|split; [discriminate|]]]].
      intros bs rest cp' Hs Ha. destruct bs as [|? [|? [|? [|? [|? ?]]]]]; cbn in Hs, Ha; try contradiction; try lia; inversion Hs. }
    inversion HR0 as [|? ? B1 HR1]; subst. destruct (is_trail b1) eqn:T1; cbn [hd0].
    + left. pose proof (is_trail_t _ B1 T1). rewrite seq2_lead, land_3f by lia.
      exists [b0; b1], (64 * (b0 - 192) + (b1 - 128)), (b1 :: r).
      split; [reflexivity|split; [reflexivity|split; [discriminate|split; [exists [b0], b1; auto|cbn; lia]]]].
    + right. exists INCOMPLETE_SEQUENCE, b0, (b1 :: r), [b0]. split; [reflexivity|split; [discriminate|split; [reflexivity|split; [discriminate|]]]].
      specialize (NA b1 T1 B1).
      intros bs rest cp' Hs Ha. destruct bs as [|? [|? [|? [|? [|? ?]]]]]; cbn in Hs, Ha; try contradiction; try lia. inversion Hs; subst. lia.
  - unfold get_sequence_3. rewrite land_ff by auto.
    destruct r as [|b1 r]; cbn [increase_safely].
    { right. exists NOT_ENOUGH_ROOM, b0, [], [b0]. split; [reflexivity|split; [discriminate|split; [reflexivity|split; [discriminate|]]]].
      intros bs rest cp' Hs Ha. destruct bs as [|? [|? [|? [|? [|? ?]]]]]; cbn in Hs, Ha; try contradiction; try lia; inversion Hs. }
    inversion HR0 as [|? ? B1 HR1]; subst. destruct (is_trail b1) eqn:T1; cbn [hd0].
    2:{ right. exists INCOMPLETE_SEQUENCE, b0, (b1 :: r), [b0]. split; [reflexivity|split; [discriminate|split; [reflexivity|split; [discriminate|]]]].
      specialize (NA b1 T1 B1).
      intros bs rest cp' Hs Ha. destruct bs as [|? [|? [|? [|? [|? ?]]]]]; cbn in Hs, Ha; try contradiction; try lia. inversion Hs; subst. lia. }
    pose proof (is_trail_t _ B1 T1). rewrite land_ff, seq3_lead, mid6 by (auto; lia).
    destruct r as [|b2 r]; cbn [increase_safely].
    { right. eexists NOT_ENOUGH_ROOM, _, [], [b0; b1]. split; [reflexivity|split; [discriminate|split; [reflexivity|split; [discriminate|]]]].
      intros bs rest cp' Hs Ha. destruct bs as [|? [|? [|? [|? [|? ?]]]]]; cbn in Hs, Ha; try contradiction; try lia; inversion Hs. }
    inversion HR1 as [|? ? B2 HR2]; subst. destruct (is_trail b2) eqn:T2; cbn [hd0].
    2:{ right. eexists INCOMPLETE_SEQUENCE, _, (b2 :: r), [b0; b1]. split; [reflexivity|split; [discriminate|split; [reflexivity|split; [discriminate|]]]].
      specialize (NA b2 T2 B2).
      intros bs rest cp' Hs Ha. destruct bs as [|? [|? [|? [|? [|? ?]]]]]; cbn in Hs, Ha; try contradiction; try lia. inversion Hs; subst. lia. }
    pose proof (is_trail_t _ B2 T2). rewrite land_3f by lia. left.
    exists [b0; b1; b2], (4096 * (b0 - 224) + 64 * (b1 - 128) + (b2 - 128)), (b2 :: r).
    split; [reflexivity|split; [reflexivity|split; [discriminate|split; [exists [b0; b1], b2; auto|cbn; lia]]]].
  - unfold get_sequence_4. rewrite land_ff by auto.
    destruct r as [|b1 r]; cbn [increase_safely].
    { right. exists NOT_ENOUGH_ROOM, b0, [], [b0]. split; [reflexivity|split; [discriminate|split; [reflexivity|split; [discriminate|]]]].
      intros bs rest cp' Hs Ha. destruct bs as [|? [|? [|? [|? [|? ?]]]]]; cbn in Hs, Ha; try contradiction; try lia; inversion Hs. }
    inversion HR0 as [|? ? B1 HR1]; subst. destruct (is_trail b1) eqn:T1; cbn [hd0].
    2:{ right. exists INCOMPLETE_SEQUENCE, b0, (b1 :: r), [b0]. split; [reflexivity|split; [discriminate|split; [reflexivity|split; [discriminate|]]]].
      specialize (NA b1 T1 B1).
      intros bs rest cp' Hs Ha. destruct bs as [|? [|? [|? [|? [|? ?]]]]]; cbn in Hs, Ha; try contradiction; try lia. inversion Hs; subst. lia. }
    pose proof (is_trail_t _ B1 T1). rewrite land_ff, seq4_lead, mid12 by (auto; lia).
    destruct r as [|b2 r]; cbn [increase_safely].
    { right. eexists NOT_ENOUGH_ROOM, _, [], [b0; b1]. split; [reflexivity|split; [discriminate|split; [reflexivity|split; [discriminate|]]]].
      intros bs rest cp' Hs Ha. destruct bs as [|? [|? [|? [|? [|? ?]]]]]; cbn in Hs, Ha; try contradiction; try lia; inversion Hs. }
    inversion HR1 as [|? ? B2 HR2]; subst. destruct (is_trail b2) eqn:T2; cbn [hd0].
    2:{ right. eexists INCOMPLETE_SEQUENCE, _, (b2 :: r), [b0; b1]. split; [reflexivity|split; [discriminate|split; [reflexivity|split; [discriminate|]]]].
      specialize (NA b2 T2 B2).
      intros bs rest cp' Hs Ha. destruct bs as [|? [|? [|? [|? [|? ?]]]]]; cbn in Hs, Ha; try contradiction; try lia. inversion Hs; subst. lia. }
    pose proof (is_trail_t _ B2 T2). rewrite land_ff, mid6 by (auto; lia).
    destruct r as [|b3 r]; cbn [increase_safely].
    { right. eexists NOT_ENOUGH_ROOM, _, [], [b0; b1; b2]. split; [reflexivity|split; [discriminate|split; [reflexivity|split; [discriminate|]]]].
      intros bs rest cp' Hs Ha. destruct bs as [|? [|? [|? [|? [|? ?]]]]]; cbn in Hs, Ha; try contradiction; try lia; inversion Hs. }
    inversion HR2 as [|? ? B3 HR3]; subst. destruct (is_trail b3) eqn:T3; cbn [hd0].
    2:{ right. eexists INCOMPLETE_SEQUENCE, _, (b3 :: r), [b0; b1; b2]. split; [reflexivity|split; [discriminate|split; [reflexivity|split; [discriminate|]]]].
      specialize (NA b3 T3 B3).
      intros bs rest cp' Hs Ha. destruct bs as [|? [|? [|? [|? [|? ?]]]]]; cbn in Hs, Ha; try contradiction; try lia. inversion Hs; subst. lia. }
    pose proof (is_trail_t _ B3 T3). rewrite land_3f by lia. left.
    exists [b0; b1; b2; b3], (262144 * (b0 - 240) + 4096 * (b1 - 128) + 64 * (b2 - 128) + (b3 - 128)), (b3 :: r).
    split; [reflexivity|split; [reflexivity|split; [discriminate|split; [exists [b0; b1; b2], b3; auto|cbn; lia]]]].
Qed.

Lemma assembled_length len bs cp : assembled len bs cp -> Z.of_nat (List.length bs) = len.
Proof. destruct bs as [|? [|? [|? [|? [|? ?]]]]]; cbn; try contradiction; lia. Qed.
Lemma assembled_nonneg len bs cp : assembled len bs cp -> 0 <= cp.
Proof. destruct bs as [|? [|? [|? [|? [|? ?]]]]]; cbn [assembled]; try contradiction; lia. Qed.
Lemma assembled_fun len bs cp cp' : assembled len bs cp -> assembled len bs cp' -> cp = cp'.
Proof. destruct bs as [|? [|? [|? [|? [|? ?]]]]]; cbn; try contradiction; lia. Qed.
Lemma app_same_length {A} (a b x y : list A) : a ++ x = b ++ y -> List.length a = List.length b -> a = b /\ x = y.
Proof.
  revert b. induction a as [|h a IH]; intros [|h' b]; cbn; intros E L; try discriminate; auto.
  injection E as -> E. destruct (IH b E) as [-> ->]; auto. Qed.
Lemma assembled_prefix len bs1 r1 cp1 bs2 r2 cp2 : bs1 ++ r1 = bs2 ++ r2 ->
  assembled len bs1 cp1 -> assembled len bs2 cp2 -> bs1 = bs2 /\ r1 = r2 /\ cp1 = cp2.
Proof.
  intros E A1 A2. pose proof (assembled_length _ _ _ A1). pose proof (assembled_length _ _ _ A2).
  destruct (app_same_length _ _ _ _ E) as [-> ->]; [lia|]. split; [|split]; auto. eapply assembled_fun; eauto.
Qed.

Lemma overlong_iff cp len : is_overlong_sequence cp len = false <->
  (cp < 0x80 -> len = 1) /\ (0x80 <= cp < 0x800 -> len = 2) /\ (0x800 <= cp < 0x10000 -> len = 3).
Proof.
  unfold is_overlong_sequence. destruct (Z.ltb_spec cp 0x80), (Z.ltb_spec cp 0x800), (Z.ltb_spec cp 0x10000); lia.
Qed.

Lemma utf8_of_assembled cp bs : utf8_of cp bs ->
  exists b0 t, bs = b0 :: t /\ byte b0 /\ sequence_length b0 <> 0 /\ assembled (sequence_length b0) bs cp /\
    is_code_point_valid cp = true /\ is_overlong_sequence cp (sequence_length b0) = false /\ scalar cp /\ 0 <= cp.
Proof.
  intros H; destruct H.
  - exists x, []. assert (byte x) by (unfold byte; lia). assert (sequence_length x = 1) as ->.
    { rewrite seqlen_eq by auto. destruct (Z.ltb_spec x 128); lia. }
    assert (scalar x) by (unfold scalar; lia).
    split; [reflexivity|split; [auto|split; [lia|split; [cbn; lia|split; [apply valid_iff; [lia|auto]|split]]]]].
    apply overlong_iff; lia. split; [auto|lia].
  - exists (0xC0 + a), [0x80 + b]. assert (byte (0xC0 + a)) by (unfold byte; lia). assert (sequence_length (0xC0 + a) = 2) as ->.
    { rewrite seqlen_eq by auto. destruct (Z.ltb_spec (0xC0 + a) 128), (Z.ltb_spec (0xC0 + a) 192), (Z.ltb_spec (0xC0 + a) 224); lia. }
    assert (scalar (64 * a + b)) by (unfold scalar; lia).
    split; [reflexivity|split; [auto|split; [lia|split; [cbn [assembled]; lia|split; [apply valid_iff; [lia|auto]|split]]]]].
    apply overlong_iff; lia. split; [auto|lia].
  - exists (0xE0 + a), [0x80 + b; 0x80 + c]. assert (byte (0xE0 + a)) by (unfold byte; lia). assert (sequence_length (0xE0 + a) = 3) as ->.
    { rewrite seqlen_eq by auto. destruct (Z.ltb_spec (0xE0 + a) 128), (Z.ltb_spec (0xE0 + a) 192), (Z.ltb_spec (0xE0 + a) 224), (Z.ltb_spec (0xE0 + a) 240); lia. }
    split; [reflexivity|split; [auto|split; [lia|split; [cbn [assembled]; lia|split; [apply valid_iff; [lia|auto]|split]]]]].
    apply overlong_iff; lia. split; [auto|lia].
  - exists (0xF0 + a), [0x80 + b; 0x80 + c; 0x80 + d]. assert (byte (0xF0 + a)) by (unfold byte; lia). assert (sequence_length (0xF0 + a) = 4) as ->.
    { rewrite seqlen_eq by auto. destruct (Z.ltb_spec (0xF0 + a) 128), (Z.ltb_spec (0xF0 + a) 192), (Z.ltb_spec (0xF0 + a) 224), (Z.ltb_spec (0xF0 + a) 240), (Z.ltb_spec (0xF0 + a) 248); lia. }
    split; [reflexivity|split; [auto|split; [lia|split; [cbn [assembled]; lia|split; [apply valid_iff; [lia|auto]|split]]]]].
    apply overlong_iff; lia. split; [auto|lia].
Qed.

Lemma assembled_utf8_of len bs cp : assembled len bs cp -> is_code_point_valid cp = true ->
  is_overlong_sequence cp len = false -> utf8_of cp bs.
Proof.
  intros A V O.
  assert (0 <= cp) by (eapply assembled_nonneg; eauto).
  apply valid_iff in V; auto. apply overlong_iff in O.
  destruct bs as [|b0 [|b1 [|b2 [|b3 [|? ?]]]]]; cbn [assembled] in A; try contradiction.
  - destruct A as (-> & ? & ->). constructor; lia.
  - destruct A as (-> & ? & ? & ->). replace [b0; b1] with [0xC0 + (b0 - 192); 0x80 + (b1 - 128)] by (f_equal; [lia|f_equal; lia]).
    constructor; lia.
  - destruct A as (-> & ? & ? & ? & ->).
    replace [b0; b1; b2] with [0xE0 + (b0 - 224); 0x80 + (b1 - 128); 0x80 + (b2 - 128)] by (f_equal; [lia|f_equal; [lia|f_equal; lia]]).
    constructor; auto; try lia.
  - destruct A as (-> & ? & ? & ? & ? & ->).
    replace [b0; b1; b2; b3] with [0xF0 + (b0 - 240); 0x80 + (b1 - 128); 0x80 + (b2 - 128); 0x80 + (b3 - 128)] by (f_equal; [lia|f_equal; [lia|f_equal; [lia|f_equal; lia]]]).
    constructor; auto; try lia.
Qed.

Lemma next_utf8_cases buf : bytes buf -> buf <> [] ->
  (exists cp bs rest, buf = bs ++ rest /\ utf8_of cp bs /\ next_utf8 buf = Ok (cp, rest) /\ noerror_next_utf8 buf = Ok (cp, rest)) \/
  (~ starts_utf8 buf /\ (exists e, next_utf8 buf = Throw e) /\
   exists pre rest, noerror_next_utf8 buf = Ok (63, rest) /\ buf = pre ++ rest /\
     (pre = [] <-> sequence_length (hd0 buf) = 0)).
Proof.
  intros HB HN. destruct buf as [|b0 r]; [congruence|]. assert (Hb0 : byte b0) by (inversion HB; auto).
  cbn [hd0]. unfold next_utf8, noerror_next_utf8, validate_next. rewrite land_ff by auto.
  assert (NS : forall cp bs rest, b0 :: r = bs ++ rest -> utf8_of cp bs ->
            sequence_length b0 <> 0 /\ assembled (sequence_length b0) bs cp /\
            is_code_point_valid cp = true /\ is_overlong_sequence cp (sequence_length b0) = false).
  { intros cp bs rest E U. destruct (utf8_of_assembled _ _ U) as (x & t & -> & _ & ? & ? & ? & ? & _). injection E as -> _. auto. }
  destruct (Z.eqb_spec (sequence_length b0) 0) as [E0|N0].
  { right. split; [|split].
    - intros (cp & bs & rest & E & U). destruct (NS _ _ _ E U). auto.
    - eexists; reflexivity.
    - exists [], (b0 :: r). split; [reflexivity|split; [reflexivity|tauto]]. }
  destruct (get_sequence_spec b0 r HB N0) as [(bs & cp & r' & -> & E & Hr' & (pre & x & Epre & Epr) & A)|(e & cp & r' & pre & -> & He & E & Hp & NA)].
  - assert (0 <= cp) by (eapply assembled_nonneg; eauto).
    destruct (is_code_point_valid cp) eqn:V.
    + destruct (is_overlong_sequence cp (sequence_length b0)) eqn:O; cbn [negb].
      * right. split; [|split; [eexists; reflexivity|]].
        -- intros (cp' & bs' & rest' & E' & U'). destruct (NS _ _ _ E' U') as (_ & A' & V' & O').
           rewrite E in E'. destruct (assembled_prefix _ _ _ _ _ _ _ E' A A') as (_ & _ & ->). congruence.
        -- exists pre, r'. split; [reflexivity|split; [exact Epr|]]. split; [|congruence]. intros ->. exfalso.
           cbn in Epre; subst bs. cbn in A. assert (is_overlong_sequence cp (sequence_length b0) = false) by (apply overlong_iff; lia). congruence.
      * left. exists cp, bs, (tl r'). cbn [bind]. split; [exact E|split; [eapply assembled_utf8_of; eauto|split; reflexivity]].
    + right. split; [|split; [eexists; reflexivity|]].
      -- intros (cp' & bs' & rest' & E' & U'). destruct (NS _ _ _ E' U') as (_ & A' & V' & O').
         rewrite E in E'. destruct (assembled_prefix _ _ _ _ _ _ _ E' A A') as (_ & _ & ->). congruence.
      -- exists pre, r'. split; [reflexivity|split; [exact Epr|]]. split; [|congruence]. intros ->. exfalso.
         cbn in Epre; subst bs. cbn in A. assert (is_code_point_valid cp = true) by (apply valid_iff; auto; unfold scalar; lia). congruence.
  - right. split; [|split].
    + intros (cp' & bs' & rest' & E' & U'). destruct (NS _ _ _ E' U') as (_ & A' & _ & _). eapply NA; eauto.
    + destruct e; try congruence; eexists; reflexivity.
    + exists pre, r'. split; [destruct e; try congruence; reflexivity|split; [exact E|]]. split; congruence.
Qed.

Lemma utf8_prefix_unique cp1 bs1 r1 cp2 bs2 r2 : utf8_of cp1 bs1 -> utf8_of cp2 bs2 -> bs1 ++ r1 = bs2 ++ r2 ->
  cp1 = cp2 /\ bs1 = bs2 /\ r1 = r2.
Proof.
  intros U1 U2 E. destruct (utf8_of_assembled _ _ U1) as (x & t & -> & _ & _ & A1 & _).
  destruct (utf8_of_assembled _ _ U2) as (x' & t' & -> & _ & _ & A2 & _).
  pose proof E as E0. injection E0 as <- _. destruct (assembled_prefix _ _ _ _ _ _ _ E A1 A2) as (? & ? & ?); auto.
Qed.

Lemma utf8_of_bytes cp bs : utf8_of cp bs -> bytes bs.
Proof. intros []; repeat constructor; lia. Qed.

(** UTF-8: accepted exactly the well-formed prefixes. *)
Lemma next_utf8_iff buf cp rest : bytes buf -> buf <> [] ->
  (next_utf8 buf = Ok (cp, rest) <-> exists bs, utf8_of cp bs /\ buf = bs ++ rest).
Proof.
  intros HB HN. destruct (next_utf8_cases buf HB HN) as [(cp' & bs & r & E & U & -> & _)|(NS & (e & ->) & _)].
  - split.
    + intros [= <- <-]. eauto.
    + intros (bs' & U' & E'). rewrite E in E'. destruct (utf8_prefix_unique _ _ _ _ _ _ U U' E') as (-> & _ & ->). reflexivity.
  - split; [discriminate|]. intros (bs & U & E). exfalso. apply NS. exists cp, bs, rest; auto.
Qed.

(** * The other encodings *)
Lemma land_80 b : byte b -> (Z.land b 0x80 =? 0) = (b <? 128).
Proof.
  intros H. unfold byte in H. pose proof (land_field b 7 1 ltac:(lia) ltac:(lia)) as E. change ((2 ^ 1 - 1) * 2 ^ 7) with 128 in E.
  rewrite E. change (2 ^ 7) with 128; change (2 ^ 1) with 2.
  destruct (Z.ltb_spec b 128).
  - rewrite (Z.div_small b 128) by lia. reflexivity.
  - replace (b / 128) with 1 by (Z.div_mod_to_equations; lia). reflexivity.
Qed.

Lemma surrogate_iff cp : is_surrogate cp = true <-> 0xD800 <= cp <= 0xDFFF.
Proof. unfold is_surrogate. lia. Qed.

Lemma pair_value h l : 0 <= h < 1024 -> 0 <= l < 1024 ->
  u32 (u32 (Z.shiftl (0xD800 + h) 10) + (0xDC00 + l) + SURROGATE_OFFSET) = 0x10000 + 1024 * h + l.
Proof.
  intros. rewrite Z.shiftl_mul_pow2 by lia. change SURROGATE_OFFSET with 4238353408. unfold u32. change (2 ^ 10) with 1024.
  rewrite (Z.mod_small ((0xD800 + h) * 1024)) by lia.
  symmetry. apply (Z.mod_unique_pos _ _ 1); lia.
Qed.

Lemma next_complete e nc cp bs rest : encodes e cp bs -> next_fn e nc (bs ++ rest) = Ok (cp, rest).
Proof.
  destruct e; cbn [encodes]; intros H.
  - destruct H as [cp H]. cbn [app next_fn]. assert (byte cp) by (unfold byte; lia).
    destruct nc; cbn [negb]; unfold next_ascii, noerror_next_ascii; rewrite land_80 by auto; destruct (Z.ltb_spec cp 128); try lia; reflexivity.
  - destruct H as [cp bs S L (lo & hi & ? & ? & -> & ->)]. cbn [app next_fn].
    assert (is_surrogate (lo + 256 * hi) = false).
    { destruct (is_surrogate _) eqn:E; auto. apply surrogate_iff in E. unfold scalar in S. lia. }
    destruct nc; cbn [negb]; unfold next_ucs2, noerror_next_ucs2; cbn [load16 bind]; rewrite H1; reflexivity.
  - cbn [next_fn]. pose proof (utf8_of_bytes _ _ H) as HB.
    destruct (utf8_of_assembled _ _ H) as (b0 & t & Ebs & Hb0 & N0 & A & V & O & _).
    assert (exists bs', bs' = bs) as [bs' Ebs'] by eauto.
    (* the decoder looks only at [bs]: get_sequence is computed on each pattern *)
    assert (G : get_sequence (sequence_length b0) (bs ++ rest) = (UTF8_OK, cp, last bs 0 :: rest)).
    { clear V O Ebs'. destruct bs as [|x0 [|x1 [|x2 [|x3 [|? ?]]]]]; cbn [assembled] in A; try contradiction; injection Ebs as -> _.
      - destruct A as (-> & ? & ->). unfold get_sequence. cbn [Z.eqb Pos.eqb]. cbn [app get_sequence_1 last]. now rewrite land_ff.
      - inversion HB as [|? ? _ HB1]; subst. inversion HB1 as [|? ? B1 _]; subst.
        destruct A as (-> & ? & ? & ->). unfold get_sequence. cbn [Z.eqb Pos.eqb]. unfold get_sequence_2. cbn [app increase_safely last hd0].
        rewrite is_trail_iff by auto. replace ((128 <=? x1) && (x1 <? 192)) with true by lia. now rewrite land_ff, seq2_lead, land_3f by (auto; lia).
      - inversion HB as [|? ? _ HB1]; subst. inversion HB1 as [|? ? B1 HB2]; subst. inversion HB2 as [|? ? B2 _]; subst.
        destruct A as (-> & ? & ? & ? & ->). unfold get_sequence. cbn [Z.eqb Pos.eqb]. unfold get_sequence_3. cbn [app increase_safely last hd0].
        rewrite ?is_trail_iff by auto. replace ((128 <=? x1) && (x1 <? 192)) with true by lia. cbn [increase_safely hd0].
        rewrite ?is_trail_iff by auto. replace ((128 <=? x2) && (x2 <? 192)) with true by lia. cbn [hd0].
        now rewrite !land_ff, seq3_lead, mid6, land_3f by (auto; lia).
      - inversion HB as [|? ? _ HB1]; subst. inversion HB1 as [|? ? B1 HB2]; subst. inversion HB2 as [|? ? B2 HB3]; subst. inversion HB3 as [|? ? B3 _]; subst.
        destruct A as (-> & ? & ? & ? & ? & ->). unfold get_sequence. cbn [Z.eqb Pos.eqb]. unfold get_sequence_4. cbn [app increase_safely last hd0].
        rewrite ?is_trail_iff by auto. replace ((128 <=? x1) && (x1 <? 192)) with true by lia. cbn [increase_safely hd0].
        rewrite ?is_trail_iff by auto. replace ((128 <=? x2) && (x2 <? 192)) with true by lia. cbn [increase_safely hd0].
        rewrite ?is_trail_iff by auto. replace ((128 <=? x3) && (x3 <? 192)) with true by lia. cbn [hd0].
        now rewrite !land_ff, seq4_lead, mid12, mid6, land_3f by (auto; lia). }
    destruct nc; cbn [negb]; unfold next_utf8, noerror_next_utf8, validate_next; subst bs; cbn [app] in G |- *;
      rewrite land_ff by auto; apply Z.eqb_neq in N0; rewrite N0, G, V, O; reflexivity.
  - destruct H as [cp bs S L (lo & hi & ? & ? & -> & ->)|h l b1 b2 Hh Hl (lo & hi & ? & ? & E1 & ->) (lo' & hi' & ? & ? & E2 & ->)].
    + assert (L1 : is_lead_surrogate (lo + 256 * hi) = false) by (unfold is_lead_surrogate, scalar in *; lia).
      assert (L2 : is_trail_surrogate (lo + 256 * hi) = false) by (unfold is_trail_surrogate, scalar in *; lia).
      destruct nc; cbn [negb next_fn app]; unfold next_utf16, noerror_next_utf16; cbn [load16 bind]; rewrite L1, L2; reflexivity.
    + assert (L1 : is_lead_surrogate (0xD800 + h) = true) by (unfold is_lead_surrogate in *; lia).
      assert (L2 : is_trail_surrogate (0xDC00 + l) = true) by (unfold is_trail_surrogate in *; lia).
      rewrite <- app_assoc. destruct nc; cbn [negb next_fn app]; unfold next_utf16, noerror_next_utf16; cbn [load16 bind]; rewrite <- E1, L1.
      * replace (_ <=? 2) with true by lia. rewrite <- E2, L2, pair_value by lia. reflexivity.
      * replace (4 <=? Z.of_nat _) with true by (cbn [List.length]; lia). rewrite <- E2, L2, pair_value by lia. reflexivity.
  - destruct H as [cp bs S (a & b & c & d & ? & ? & ? & ? & -> & ->)]. unfold byte in *.
    assert (is_code_point_valid (a + 256 * b + 65536 * c + 16777216 * d) = true) as V by (apply valid_iff; auto; lia).
    destruct nc; cbn [negb next_fn app]; unfold next_utf32, noerror_next_utf32; cbn [load32 bind]; rewrite V; reflexivity.
Qed.

Lemma next_strict_cases e buf : bytes buf -> whole e buf -> buf <> [] ->
  (exists cp bs rest, buf = bs ++ rest /\ encodes e cp bs /\ next_fn e false buf = Ok (cp, rest)) \/
  (exists x, next_fn e false buf = Throw x).
Proof.
  intros HB [k HW] HN. destruct e; cbn [next_fn negb encodes char_size] in *.
  - destruct buf as [|b r]; [congruence|]. inversion HB as [|? ? Hb _]; subst. unfold next_ascii. rewrite land_80 by auto. unfold byte in Hb.
    destruct (Z.ltb_spec b 128); cbn [negb]; [left; exists b, [b], r; repeat split; lia|right; eauto].
  - destruct buf as [|lo [|hi r]]; [congruence|cbn in HW; lia|].
    inversion HB as [|? ? Hlo HB1]; subst. inversion HB1 as [|? ? Hhi _]; subst.
    unfold next_ucs2. cbn [load16 bind]. destruct (is_surrogate (lo + 256 * hi)) eqn:E; [right; eauto|left].
    exists (lo + 256 * hi), [lo; hi], r. split; [reflexivity|split; [|reflexivity]].
    assert (~ 0xD800 <= lo + 256 * hi <= 0xDFFF) by (intros X; apply surrogate_iff in X; congruence).
    constructor; [unfold scalar, byte in *; lia|unfold byte in *; lia|exists lo, hi; auto].
  - destruct (next_utf8_cases buf HB HN) as [(cp & bs & r & E & U & -> & _)|(_ & (x & ->) & _)]; [left; exists cp, bs, r; auto|right; eauto].
  - destruct buf as [|lo [|hi r]]; [congruence|cbn in HW; lia|].
    inversion HB as [|? ? Hlo HB1]; subst. inversion HB1 as [|? ? Hhi HB2]; subst.
    unfold next_utf16. cbn [load16 bind]. destruct (is_lead_surrogate (lo + 256 * hi)) eqn:E.
    + destruct (4 <=? _) eqn:L4; [|right; eauto]. destruct r as [|lo' [|hi' r]]; [cbn in L4; lia|cbn in L4; lia|].
      inversion HB2 as [|? ? Hlo' HB3]; subst. inversion HB3 as [|? ? Hhi' _]; subst. cbn [load16 bind].
      destruct (is_trail_surrogate (lo' + 256 * hi')) eqn:E2; [|right; eauto]. left.
      exists (0x10000 + 1024 * (lo + 256 * hi - 0xD800) + (lo' + 256 * hi' - 0xDC00)), ([lo; hi] ++ [lo'; hi']), r.
      unfold is_lead_surrogate, is_trail_surrogate in *. unfold byte in *.
      split; [reflexivity|split].
      * apply (utf16_2 (lo + 256 * hi - 0xD800) (lo' + 256 * hi' - 0xDC00)); [lia|lia|exists lo, hi; unfold byte; split; [lia|split; [lia|split; [lia|reflexivity]]]|exists lo', hi'; unfold byte; split; [lia|split; [lia|split; [lia|reflexivity]]]].
      * rewrite <- pair_value by lia. replace (0xD800 + (lo + 256 * hi - 0xD800)) with (lo + 256 * hi) by lia.
        replace (0xDC00 + (lo' + 256 * hi' - 0xDC00)) with (lo' + 256 * hi') by lia. reflexivity.
    + destruct (is_trail_surrogate (lo + 256 * hi)) eqn:E2; [right; eauto|left].
      exists (lo + 256 * hi), [lo; hi], r. split; [reflexivity|split; [|reflexivity]].
      unfold is_lead_surrogate, is_trail_surrogate in *.
      apply utf16_1; [unfold scalar, byte in *; lia|unfold byte in *; lia|exists lo, hi; auto].
  - destruct buf as [|a [|b [|c [|d r]]]]; [congruence|cbn in HW; lia|cbn in HW; lia|cbn in HW; lia|].
    inversion HB as [|? ? Ha HB1]; subst. inversion HB1 as [|? ? Hb HB2]; subst. inversion HB2 as [|? ? Hc HB3]; subst. inversion HB3 as [|? ? Hd _]; subst.
    unfold next_utf32. cbn [load32 bind]. destruct (is_code_point_valid _) eqn:E; cbn [negb]; [left|right; eauto].
    unfold byte in *. apply valid_iff in E; [|lia].
    eexists _, [a; b; c; d], r. split; [reflexivity|split; [|reflexivity]]. constructor; auto. exists a, b, c, d. unfold byte; auto 10.
Qed.

Lemma encodes_nonempty e cp bs : encodes e cp bs -> bs <> [].
Proof.
  destruct e; cbn [encodes]; intros H; destruct H as [].
  all: try discriminate.
  all: repeat match goal with H : word16 _ _ |- _ => destruct H as (? & ? & ? & ? & ? & ->) | H : word32 _ _ |- _ => destruct H as (? & ? & ? & ? & ? & ? & ? & ? & ? & ->) end; discriminate.
Qed.
Lemma encodes_bytes e cp bs : encodes e cp bs -> bytes bs.
Proof.
  destruct e; cbn [encodes]; intros H; [| |eapply utf8_of_bytes; eauto| |]; destruct H as [];
  repeat match goal with H : word16 _ _ |- _ => destruct H as (? & ? & ? & ? & ? & ->) | H : word32 _ _ |- _ => destruct H as (? & ? & ? & ? & ? & ? & ? & ? & ? & ->) end;
  repeat constructor; auto; unfold byte in *; lia.
Qed.
Lemma encodes_scalar e cp bs : encodes e cp bs -> scalar cp.
Proof.
  destruct e; cbn [encodes]; intros H; [| |destruct (utf8_of_assembled _ _ H) as (? & ? & _ & _ & _ & _ & _ & _ & S & _); auto| |]; destruct H; auto; unfold scalar in *; lia.
Qed.

(** Uniqueness of decoding, all encodings. *)
Lemma encodes_prefix_unique e cp1 bs1 r1 cp2 bs2 r2 : encodes e cp1 bs1 -> encodes e cp2 bs2 -> bs1 ++ r1 = bs2 ++ r2 ->
  cp1 = cp2 /\ bs1 = bs2 /\ r1 = r2.
Proof.
  intros H1 H2 E. pose proof (next_complete e false cp1 bs1 r1 H1) as N1. pose proof (next_complete e false cp2 bs2 r2 H2) as N2.
  rewrite E in N1. rewrite N1 in N2. injection N2 as -> ->. split; [auto|split; [|auto]].
  eapply app_inv_tail; eauto.
Qed.

Lemma next_strict_iff e buf cp rest : bytes buf -> whole e buf -> buf <> [] ->
  (next_fn e false buf = Ok (cp, rest) <-> exists bs, encodes e cp bs /\ buf = bs ++ rest).
Proof.
  intros HB HW HN. split.
  - intros H. destruct (next_strict_cases e buf HB HW HN) as [(cp' & bs & r & E & U & H')|(x & H')]; rewrite H' in H; [|discriminate].
    injection H as -> ->. eauto.
  - intros (bs & U & ->). apply next_complete; auto.
Qed.

(** * Decoders that never report errors *)
Lemma bad_lead8_iff buf : bytes buf -> buf <> [] -> (sequence_length (hd0 buf) = 0 <-> bad_lead8 buf).
Proof.
  intros HB HN. destruct buf as [|b r]; [congruence|]. inversion HB as [|? ? Hb _]; subst. cbn [hd0]. unfold bad_lead8; cbn [hd].
  rewrite seqlen_eq by auto. unfold byte in Hb.
  destruct (Z.ltb_spec b 128), (Z.ltb_spec b 192), (Z.ltb_spec b 224), (Z.ltb_spec b 240), (Z.ltb_spec b 248); lia.
Qed.

Lemma noerror_cases e buf : bytes buf -> whole e buf -> buf <> [] ->
  (e = Utf8 -> ~ bad_lead8 buf) -> (e = Utf16 -> ~ dangling_lead16 buf) ->
  (exists cp rest, next_fn e false buf = Ok (cp, rest) /\ next_fn e true buf = Ok (cp, rest)) \/
  ((exists x, next_fn e false buf = Throw x) /\
   exists pre rest, next_fn e true buf = Ok (63, rest) /\ buf = pre ++ rest /\ pre <> []).
Proof.
  intros HB [k HW] HN N8 N16. destruct e; cbn [next_fn negb encodes char_size] in *.
  - destruct buf as [|b r]; [congruence|]. unfold next_ascii, noerror_next_ascii.
    destruct (Z.land b 128 =? 0); cbn [negb]; [left; eauto|right; split; [eauto|]]. exists [b], r. split; [reflexivity|split; [reflexivity|discriminate]].
  - destruct buf as [|lo [|hi r]]; [congruence|cbn in HW; lia|]. unfold next_ucs2, noerror_next_ucs2. cbn [load16 bind].
    destruct (is_surrogate _); [right; split; [eauto|]|left; eauto]. exists [lo; hi], r. split; [reflexivity|split; [reflexivity|discriminate]].
  - destruct (next_utf8_cases buf HB HN) as [(cp & bs & r & E & U & -> & ->)|(_ & (x & ->) & pre & r & -> & E & I)]; [left; eauto|right; split; [eauto|]].
    exists pre, r. split; [reflexivity|split; [exact E|]]. intros Hp. apply N8; auto. apply bad_lead8_iff; auto. apply I; auto.
  - destruct buf as [|lo [|hi r]]; [congruence|cbn in HW; lia|].
    inversion HB as [|? ? Hlo HB1]; subst. inversion HB1 as [|? ? Hhi HB2]; subst. unfold byte in Hlo, Hhi.
    unfold next_utf16, noerror_next_utf16. cbn [load16 bind].
    destruct (is_lead_surrogate (lo + 256 * hi)) eqn:E.
    + destruct r as [|lo' [|hi' r]]; [|cbn in HW; lia|].
      { exfalso. apply N16; auto. exists lo, hi. split; auto. unfold is_lead_surrogate in E. lia. }
      replace (4 <=? _) with true by (cbn [List.length]; lia). replace (_ <=? 2) with true by lia. cbn [load16 bind].
      destruct (is_trail_surrogate _); [left; eauto|right; split; [eauto|]].
      exists [lo; hi; lo'; hi'], r. split; [reflexivity|split; [reflexivity|discriminate]].
    + destruct (is_trail_surrogate _); [right; split; [eauto|]|left; eauto].
      exists [lo; hi], r. split; [reflexivity|split; [reflexivity|discriminate]].
  - destruct buf as [|a [|b [|c [|d r]]]]; [congruence|cbn in HW; lia|cbn in HW; lia|cbn in HW; lia|].
    unfold next_utf32, noerror_next_utf32. cbn [load32 bind].
    destruct (is_code_point_valid _); cbn [negb]; [left; eauto|right; split; [eauto|]].
    exists [a; b; c; d], r. split; [reflexivity|split; [reflexivity|discriminate]].
Qed.

Lemma noerror_utf8_stuck buf : bytes buf -> buf <> [] -> bad_lead8 buf -> next_fn Utf8 true buf = Ok (63, buf).
Proof.
  intros HB HN H. apply bad_lead8_iff in H; auto. destruct buf as [|b r]; [congruence|]. cbn [next_fn negb]. cbn [hd0] in H.
  unfold noerror_next_utf8. rewrite land_ff by (inversion HB; auto). rewrite H. reflexivity.
Qed.

Lemma noerror_utf16_oob buf : bytes buf -> dangling_lead16 buf -> next_fn Utf16 true buf = UB.
Proof.
  intros HB (lo & hi & -> & H). inversion HB as [|? ? Hlo HB1]; subst. unfold byte in Hlo. cbn [next_fn negb]. unfold noerror_next_utf16. cbn [load16 bind].
  replace (is_lead_surrogate _) with true by (unfold is_lead_surrogate; lia). reflexivity.
Qed.

(** * Encoders *)
Lemma u8_small x : 0 <= x < 256 -> u8 x = x.
Proof. intros; apply Z.mod_small; lia. Qed.
Lemma lor_top x a k : 0 <= k -> 0 <= x < 2 ^ k -> Z.lor x (a * 2 ^ k) = a * 2 ^ k + x.
Proof. intros. rewrite Z.lor_comm. apply lor_disjoint; auto. Qed.

Lemma trailbyte x : u8 (Z.lor (Z.land x 0x3f) 0x80) = 0x80 + x mod 64.
Proof.
  change 0x3f with (2 ^ 6 - 1). rewrite land_mask by lia. change (2 ^ 6) with 64.
  pose proof (Z.mod_pos_bound x 64 ltac:(lia)). pose proof (lor_top (x mod 64) 2 6 ltac:(lia) ltac:(lia)) as E.
  change (2 * 2 ^ 6) with 0x80 in E. rewrite E. apply u8_small. lia.
Qed.
Lemma leadbyte x hi : 0 <= x < 64 -> 0 <= hi < 4 -> u8 (Z.lor x (hi * 2 ^ 6)) = hi * 64 + x.
Proof. intros. rewrite lor_top by lia. apply u8_small. lia. Qed.

Lemma utf8_append_spec cp : scalar cp -> exists bs, utf8_append cp = Ok bs /\ utf8_of cp bs /\ (1 <= List.length bs <= 4)%nat.
Proof.
  intros S. pose proof S as [S1 S2]. unfold utf8_append. assert (V : is_code_point_valid cp = true) by (apply valid_iff; auto; lia).
  rewrite V. cbn [negb]. rewrite !Z.shiftr_div_pow2 by lia. rewrite !trailbyte.
  change (2 ^ 6) with 64. change (2 ^ 12) with 4096. change (2 ^ 18) with 262144.
  assert (E6 : cp = 64 * (cp / 64) + cp mod 64) by (apply Z.div_mod; lia). pose proof (Z.mod_pos_bound cp 64 ltac:(lia)) as M6.
  destruct (Z.ltb_spec cp 0x80).
  { exists [u8 cp]. split; [reflexivity|]. rewrite u8_small by lia. split; [constructor; lia|cbn; lia]. }
  destruct (Z.ltb_spec cp 0x800).
  { eexists; split; [reflexivity|split; [|cbn; lia]].
    assert (2 <= cp / 64 < 32) by lia. pose proof (leadbyte (cp / 64) 3 ltac:(lia) ltac:(lia)) as L. change (3 * 2 ^ 6) with 0xc0 in L. rewrite L.
    rewrite E6 at 1. apply utf8_2; lia. }
  assert (E12 : cp / 64 = 64 * (cp / 4096) + (cp / 64) mod 64).
  { replace (cp / 4096) with (cp / 64 / 64) by (rewrite Z.div_div by lia; reflexivity). apply Z.div_mod; lia. }
  pose proof (Z.mod_pos_bound (cp / 64) 64 ltac:(lia)) as M12.
  destruct (Z.ltb_spec cp 0x10000).
  { eexists; split; [reflexivity|split; [|cbn; lia]].
    assert (0 <= cp / 4096 < 16) by lia.
    pose proof (lor_top (cp / 4096) 14 4 ltac:(lia) ltac:(lia)) as L. change (14 * 2 ^ 4) with 0xe0 in L. rewrite L, u8_small by lia.
    replace cp with (4096 * (cp / 4096) + 64 * ((cp / 64) mod 64) + cp mod 64) at 1 by lia. apply utf8_3; try lia.
    replace (4096 * (cp / 4096) + 64 * ((cp / 64) mod 64) + cp mod 64) with cp by lia. auto. }
  assert (E18 : cp / 4096 = 64 * (cp / 262144) + (cp / 4096) mod 64).
  { replace (cp / 262144) with (cp / 4096 / 64) by (rewrite Z.div_div by lia; reflexivity). apply Z.div_mod; lia. }
  pose proof (Z.mod_pos_bound (cp / 4096) 64 ltac:(lia)) as M18.
  eexists; split; [reflexivity|split; [|cbn; lia]].
  assert (0 <= cp / 262144 < 8) by lia.
  pose proof (lor_top (cp / 262144) 30 3 ltac:(lia) ltac:(lia)) as L. change (30 * 2 ^ 3) with 0xf0 in L. rewrite L, u8_small by lia.
  replace cp with (262144 * (cp / 262144) + 4096 * ((cp / 4096) mod 64) + 64 * ((cp / 64) mod 64) + cp mod 64) at 1 by lia.
  apply utf8_4; try lia.
  replace (262144 * (cp / 262144) + 4096 * ((cp / 4096) mod 64) + 64 * ((cp / 64) mod 64) + cp mod 64) with cp by lia. auto.
Qed.

Lemma utf8_append_invalid cp : 0 <= cp -> ~ scalar cp -> utf8_append cp = Throw "invalid_code_point".
Proof. intros H N. unfold utf8_append. destruct (is_code_point_valid cp) eqn:V; [apply valid_iff in V; tauto|reflexivity]. Qed.

(** Each code point has exactly one encoding. *)
Lemma bytes16_word v bs : 0 <= v < 65536 -> (word16 v bs <-> bs = bytes16 v).
Proof.
  intros Hv. unfold bytes16, u16. rewrite (Z.mod_small v) by lia. split.
  - intros (lo & hi & ? & ? & -> & ->). unfold byte in *.
    assert (E1 : (lo + 256 * hi) mod 256 = lo) by (symmetry; apply (Z.mod_unique_pos _ _ hi); lia).
    assert (E2 : (lo + 256 * hi) / 256 = hi) by (symmetry; apply (Z.div_unique_pos _ _ _ lo); lia). rewrite E1, E2; reflexivity.
  - intros ->. exists (v mod 256), (v / 256). unfold byte.
    pose proof (Z.mod_pos_bound v 256 ltac:(lia)). pose proof (Z.div_mod v 256 ltac:(lia)).
    split; [lia|split; [lia|split; [lia|reflexivity]]].
Qed.
Lemma bytes32_word v bs : 0 <= v < 4294967296 -> (word32 v bs <-> bs = bytes32 v).
Proof.
  intros Hv. unfold bytes32, u32. rewrite (Z.mod_small v) by lia.
  assert (D : forall a b c d, byte a -> byte b -> byte c -> byte d -> let w := a + 256 * b + 65536 * c + 16777216 * d in
     w mod 256 = a /\ (w / 256) mod 256 = b /\ (w / 65536) mod 256 = c /\ w / 16777216 = d).
  { intros a b c d Ha Hb Hc Hd w. unfold byte in *.
    split; [symmetry; apply (Z.mod_unique_pos _ _ (b + 256 * c + 65536 * d)); lia|].
    assert (w / 256 = b + 256 * c + 65536 * d) as -> by (symmetry; apply (Z.div_unique_pos _ _ _ a); lia).
    assert (w / 65536 = c + 256 * d) as -> by (symmetry; apply (Z.div_unique_pos _ _ _ (a + 256 * b)); lia).
    split; [symmetry; apply (Z.mod_unique_pos _ _ (c + 256 * d)); lia|].
    split; [symmetry; apply (Z.mod_unique_pos _ _ d); lia|].
    symmetry; apply (Z.div_unique_pos _ _ _ (a + 256 * b + 65536 * c)); lia. }
  split.
  - intros (a & b & c & d & Ha & Hb & Hc & Hd & -> & ->). destruct (D a b c d Ha Hb Hc Hd) as (-> & -> & -> & ->). reflexivity.
  - intros ->. eexists _, _, _, _. unfold byte.
    pose proof (Z.mod_pos_bound v 256 ltac:(lia)). pose proof (Z.div_mod v 256 ltac:(lia)).
    pose proof (Z.mod_pos_bound (v / 256) 256 ltac:(lia)). pose proof (Z.div_mod (v / 256) 256 ltac:(lia)) as D2. rewrite Z.div_div in D2 by lia. change (256 * 256) with 65536 in D2.
    pose proof (Z.mod_pos_bound (v / 65536) 256 ltac:(lia)). pose proof (Z.div_mod (v / 65536) 256 ltac:(lia)) as D3. rewrite Z.div_div in D3 by lia. change (65536 * 256) with 16777216 in D3.
    split; [|split; [|split; [|split; [|split; [|reflexivity]]]]]; lia.
Qed.

Lemma utf8_of_unique_eq cp cp' bs bs' : utf8_of cp bs -> utf8_of cp' bs' -> cp = cp' -> bs = bs'.
Proof.
  intros H H' E; destruct H as [x|a b|a b c|a b c d], H' as [x'|a' b'|a' b' c'|a' b' c' d']; try lia.
  - congruence.
  - assert (a = a') by lia. assert (b = b') by lia. congruence.
  - assert (a = a') by lia. assert (b = b') by lia. assert (c = c') by lia. congruence.
  - assert (a = a') by lia. assert (b = b') by lia. assert (c = c') by lia. assert (d = d') by lia. congruence.
Qed.
Lemma utf8_of_unique cp bs bs' : utf8_of cp bs -> utf8_of cp bs' -> bs = bs'.
Proof. intros; eapply utf8_of_unique_eq; eauto. Qed.

Lemma store_ok bs room : Z.of_nat (List.length bs) <= room -> store bs room = Ok (bs, room - Z.of_nat (List.length bs)).
Proof. intros H. unfold store. destruct (Z.leb_spec (Z.of_nat (List.length bs)) room); [reflexivity|lia]. Qed.

Lemma land_not7f cp : 0 <= cp < 2 ^ 32 -> (Z.land cp (u32 (Z.lnot 0x7f)) =? 0) = (cp <? 128).
Proof.
  intros H. pose proof (land_field cp 7 25 ltac:(lia) ltac:(lia)) as E. change ((2 ^ 25 - 1) * 2 ^ 7) with (u32 (Z.lnot 0x7f)) in E. rewrite E.
  change (2 ^ 7) with 128. rewrite Z.mod_small by (change (2 ^ 25) with 33554432; change (2 ^ 32) with 4294967296 in H; Z.div_mod_to_equations; lia).
  destruct (Z.ltb_spec cp 128). rewrite Z.div_small by lia; reflexivity.
  apply Z.eqb_neq. assert (1 <= cp / 128) by (Z.div_mod_to_equations; lia). lia.
Qed.
Lemma land_notffff cp : 0 <= cp < 2 ^ 32 -> (Z.land cp (u32 (Z.lnot 0xffff)) =? 0) = (cp <? 65536).
Proof.
  intros H. pose proof (land_field cp 16 16 ltac:(lia) ltac:(lia)) as E. change ((2 ^ 16 - 1) * 2 ^ 16) with (u32 (Z.lnot 0xffff)) in E. rewrite E.
  change (2 ^ 16) with 65536. rewrite Z.mod_small by (change (2 ^ 32) with 4294967296 in H; Z.div_mod_to_equations; lia).
  destruct (Z.ltb_spec cp 65536). rewrite Z.div_small by lia; reflexivity.
  apply Z.eqb_neq. assert (1 <= cp / 65536) by (Z.div_mod_to_equations; lia). lia.
Qed.

Lemma bytes16_length v : List.length (bytes16 v) = 2%nat.
Proof. reflexivity. Qed.

Lemma append_complete e nc cp bs room : encodes e cp bs -> Z.of_nat (List.length bs) <= room ->
  append_fn e nc cp room = Ok (bs, room - Z.of_nat (List.length bs)).
Proof.
  intros H R. pose proof (encodes_scalar _ _ _ H) as [Sc1 Sc2]. destruct e; cbn [encodes] in H.
  - destruct H as [cp H]. assert (E : append_fn Ascii nc cp room = store [u8 cp] room).
    { destruct nc; cbn [append_fn negb]; unfold append_ascii, noerror_append_ascii; rewrite land_not7f by lia; replace (cp <? 128) with true by lia; reflexivity. }
    rewrite E, u8_small by lia. now apply store_ok.
  - destruct H as [cp bs S L W]. apply bytes16_word in W; [|unfold scalar in S; lia].
    assert (NS : is_surrogate cp = false) by (destruct (is_surrogate cp) eqn:X; auto; apply surrogate_iff in X; lia).
    assert (E : append_fn Ucs2 nc cp room = store (bytes16 cp) room).
    { destruct nc; cbn [append_fn negb]; unfold append_ucs2, noerror_append_ucs2; rewrite land_notffff, NS by lia; replace (cp <? 65536) with true by lia; reflexivity. }
    rewrite E, <- W. now apply store_ok.
  - destruct (utf8_append_spec cp) as (bs' & A & U & _). { split; auto. }
    rewrite <- (utf8_of_unique _ _ _ H U) in A.
    destruct nc; cbn [append_fn negb]; unfold append_utf8, noerror_append_utf8; rewrite A; cbn [bind];
      (destruct (6 <=? room); [now apply store_ok|]); (destruct (Z.leb_spec (Z.of_nat (List.length bs)) room); [now apply store_ok|lia]).
  - destruct H as [cp bs S L W|h l b1 b2 Hh Hl W1 W2].
    + apply bytes16_word in W; [|lia].
      assert (E : append_fn Utf16 nc cp room = store (bytes16 cp) room).
      { destruct nc; cbn [append_fn negb]; unfold append_utf16, noerror_append_utf16; replace (0xffff <? cp) with false by lia; reflexivity. }
      rewrite E, <- W. now apply store_ok.
    + apply bytes16_word in W1; [|lia]. apply bytes16_word in W2; [|lia].
      assert (E1 : Z.shiftr (0x10000 + 1024 * h + l) 10 + LEAD_OFFSET = 0xD800 + h).
      { rewrite Z.shiftr_div_pow2 by lia. change (2 ^ 10) with 1024. change LEAD_OFFSET with 55232.
        assert ((0x10000 + 1024 * h + l) / 1024 = 64 + h) as -> by (symmetry; apply (Z.div_unique_pos _ _ _ l); lia). lia. }
      assert (E2 : Z.land (0x10000 + 1024 * h + l) 0x3ff + 0xdc00 = 0xDC00 + l).
      { change 0x3ff with (2 ^ 10 - 1). rewrite land_mask by lia. change (2 ^ 10) with 1024.
        assert ((0x10000 + 1024 * h + l) mod 1024 = l) as -> by (symmetry; apply (Z.mod_unique_pos _ _ (64 + h)); lia). lia. }
      assert (R4 : 4 <= room) by (subst b1 b2; rewrite app_length, !bytes16_length in R; lia).
      assert (F : append_fn Utf16 nc (0x10000 + 1024 * h + l) room = Ok (bytes16 (0xD800 + h) ++ bytes16 (0xDC00 + l), room - 2 - 2)).
      { destruct nc; cbn [append_fn negb]; unfold append_utf16, noerror_append_utf16; replace (0xffff <? _) with true by lia; rewrite E1, E2.
        - replace (2 <? room) with true by lia. rewrite store_ok by (rewrite bytes16_length; lia). cbn [bind]. rewrite store_ok by (rewrite !bytes16_length; lia). reflexivity.
        - rewrite store_ok by (rewrite bytes16_length; lia). cbn [bind]. rewrite !bytes16_length. replace (room - Z.of_nat 2 <=? 0) with false by lia.
          rewrite store_ok by (rewrite !bytes16_length; lia). reflexivity. }
      rewrite F, W1, W2, app_length, !bytes16_length. f_equal. f_equal. lia.
  - destruct H as [cp bs S W]. apply bytes32_word in W; [|lia].
    assert (E : append_fn Utf32 nc cp room = store (bytes32 cp) room) by (destruct nc; reflexivity).
    rewrite E, <- W. now apply store_ok.
Qed.

(** Encoders stay inside the buffer. *)
Lemma store_fits bs room : bs <> [] -> Z.of_nat (List.length bs) <= room -> fits room (store bs room).
Proof. intros. rewrite store_ok by auto. cbn. split; [auto|lia]. Qed.

Lemma append_in_bounds e nc cp k : 0 <= cp < 2 ^ 32 -> 1 <= k ->
  fits (k * Z.of_nat (char_size e)) (append_fn e nc cp (k * Z.of_nat (char_size e))).
Proof.
  intros Hc Hk. destruct e; cbn [char_size append_fn]; set (room := k * _); assert (HR : room = k * _) by reflexivity; clearbody room; cbn in HR.
  - destruct nc; cbn [negb]; unfold append_ascii, noerror_append_ascii.
    + apply store_fits; [discriminate|cbn; lia].
    + destruct (negb _); [exact I|]. apply store_fits; [discriminate|cbn; lia].
  - destruct nc; cbn [negb]; unfold append_ucs2, noerror_append_ucs2.
    + apply store_fits; [discriminate|rewrite bytes16_length; lia].
    + destruct (_ || _); [exact I|]. apply store_fits; [discriminate|rewrite bytes16_length; lia].
  - assert (U : (exists bs, utf8_append cp = Ok bs /\ bs <> [] /\ (List.length bs <= 4)%nat) \/ utf8_append cp = Throw "invalid_code_point").
    { destruct (is_code_point_valid cp) eqn:V.
      - apply valid_iff in V; [|lia]. destruct (utf8_append_spec cp V) as (bs & -> & _ & L). left. exists bs. split; [auto|split; [|lia]]. destruct bs; [cbn in L; lia|discriminate].
      - right. unfold utf8_append. rewrite V. reflexivity. }
    destruct U as [(bs & U & N & L)|U]; destruct nc; cbn [negb]; unfold append_utf8, noerror_append_utf8; rewrite U; cbn [bind];
      destruct (Z.leb_spec 6 room); try exact I; try (apply store_fits; [auto|lia]);
      destruct (Z.leb_spec (Z.of_nat (List.length bs)) room); try exact I; try (apply store_fits; [auto|lia]).
    apply store_fits; [|rewrite repeat_length; lia]. destruct (Z.to_nat room) eqn:E; [lia|discriminate].
  - destruct nc; cbn [negb]; unfold append_utf16, noerror_append_utf16; destruct (0xffff <? cp); try (apply store_fits; [discriminate|rewrite bytes16_length; lia]).
    + destruct (Z.ltb_spec 2 room).
      * rewrite store_ok by (rewrite bytes16_length; lia). cbn [bind]. rewrite store_ok by (rewrite !bytes16_length; lia). cbn [bind].
        unfold fits. rewrite app_length, !bytes16_length. split; [discriminate|lia].
      * apply store_fits; [|rewrite repeat_length; lia]. destruct (Z.to_nat room) eqn:E; [lia|discriminate].
    + rewrite store_ok by (rewrite bytes16_length; lia). cbn [bind]. rewrite bytes16_length. destruct (Z.leb_spec (room - Z.of_nat 2) 0); [exact I|].
      rewrite store_ok by (rewrite !bytes16_length; lia). cbn [bind].
      unfold fits. rewrite app_length, !bytes16_length. split; [discriminate|lia].
  - destruct nc; (apply store_fits; [discriminate|cbn; lia]).
Qed.

(** The checked ASCII, UCS-2 and UTF-8 encoders write only valid encodings. *)
Lemma append_sound e cp room bs room' : e = Ascii \/ e = Ucs2 \/ e = Utf8 -> 0 <= cp < 2 ^ 32 ->
  append_fn e false cp room = Ok (bs, room') -> encodes e cp bs.
Proof.
  intros He Hc. destruct He as [-> | [-> | ->]]; cbn [append_fn negb encodes].
  - unfold append_ascii. rewrite land_not7f by auto. destruct (Z.ltb_spec cp 128); cbn [negb]; [|discriminate].
    unfold store. destruct (_ <=? _); [|discriminate]. intros [= <- _]. rewrite u8_small by lia. constructor; lia.
  - unfold append_ucs2. rewrite land_notffff by auto. destruct (Z.ltb_spec cp 65536); cbn [negb orb]; [|discriminate].
    destruct (is_surrogate cp) eqn:S; [discriminate|]. unfold store. destruct (_ <=? _); [|discriminate]. intros H'.
    assert (bs = bytes16 cp) as -> by congruence. constructor; [|lia|apply bytes16_word; auto; lia].
    split; [lia|]. intros X. apply surrogate_iff in X. congruence.
  - unfold append_utf8. destruct (is_code_point_valid cp) eqn:V.
    + apply valid_iff in V; [|lia]. destruct (utf8_append_spec cp V) as (b' & -> & U & _). cbn [bind]. unfold store.
      destruct (6 <=? room); destruct (_ <=? room); try discriminate; intros H'; assert (bs = b') as -> by congruence; auto.
    + unfold utf8_append. rewrite V. cbn [negb bind]. destruct (6 <=? room); discriminate.
Qed.

(** No-error mode: an unrepresentable code point becomes '?' in ASCII and UCS-2. *)
Lemma append_substitutes e cp room : e = Ascii \/ e = Ucs2 -> 0 <= cp < 2 ^ 32 -> Z.of_nat (char_size e) <= room ->
  (forall bs, ~ encodes e cp bs) ->
  exists bs, append_fn e true cp room = Ok (bs, room - Z.of_nat (char_size e)) /\ encodes e 63 bs.
Proof.
  intros [-> | ->] Hc R N; cbn [append_fn negb encodes char_size] in *.
  - exists [63]. unfold noerror_append_ascii. rewrite land_not7f by auto. destruct (Z.ltb_spec cp 128); cbn [negb].
    { exfalso. eapply N. constructor. lia. }
    split; [apply store_ok; cbn; lia|constructor; lia].
  - exists (bytes16 63). assert (W : encodes_ucs2 63 (bytes16 63)) by (constructor; [unfold scalar; lia|lia|apply bytes16_word; [lia|reflexivity]]).
    unfold noerror_append_ucs2. rewrite land_notffff by auto. destruct (negb (cp <? 65536) || is_surrogate cp) eqn:E.
    { split; [apply store_ok; rewrite bytes16_length; lia|auto]. }
    exfalso. apply (N (bytes16 cp)). constructor; [|lia|apply bytes16_word; [lia|reflexivity]].
    split; [lia|]. intros X. apply surrogate_iff in X. rewrite X in E. rewrite orb_true_r in E. discriminate.
Qed.

(** * Whole texts *)
Lemma range_loop_ok e nc cps buf : text (encodes e) cps buf -> forall fuel res,
  (List.length buf <= fuel)%nat ->
  exists out, range_loop fuel (next_fn e nc) buf res = Ok (res ++ out) /\ text utf8_of cps out.
Proof.
  induction 1 as [|cp bs cps rest Hone Htext IH]; intros fuel res HF.
  - exists []. rewrite app_nil_r. destruct fuel; split; try reflexivity; constructor.
  - pose proof (encodes_nonempty _ _ _ Hone) as N. rewrite app_length in HF.
    assert (0 < List.length bs)%nat by (destruct bs; [congruence|cbn; lia]).
    destruct (utf8_append_spec cp (encodes_scalar _ _ _ Hone)) as (b8 & A & U & _).
    destruct fuel as [|fuel]; [lia|]. destruct (IH fuel (res ++ b8) ltac:(lia)) as (out & E & T).
    exists (b8 ++ out). split; [|constructor; auto].
    pose proof (next_complete e nc cp bs rest Hone) as Nx.
    destruct (bs ++ rest) as [|z zs] eqn:Ebs; [destruct bs; [congruence|discriminate]|].
    cbn [range_loop]. rewrite Nx. cbn [bind]. unfold string_append_utf8. rewrite A. cbn [bind]. rewrite E, app_assoc. reflexivity.
Qed.

Lemma whole_tail e pre rest : (exists k, List.length pre = (k * char_size e)%nat) -> whole e (pre ++ rest) -> whole e rest.
Proof. intros [k Hk] [n Hn]. rewrite app_length in Hn. exists (n - k)%nat. rewrite Nat.mul_sub_distr_r. lia. Qed.
Lemma encodes_whole e cp bs : encodes e cp bs -> exists k, List.length bs = (k * char_size e)%nat.
Proof.
  destruct e; cbn [encodes char_size]; intros H.
  - destruct H. exists 1%nat; reflexivity.
  - destruct H as [? ? _ _ (? & ? & _ & _ & _ & ->)]. exists 1%nat; reflexivity.
  - exists (List.length bs). lia.
  - destruct H as [? ? _ _ (? & ? & _ & _ & _ & ->)|? ? ? ? _ _ (? & ? & _ & _ & _ & ->) (? & ? & _ & _ & _ & ->)]; [exists 1%nat|exists 2%nat]; reflexivity.
  - destruct H as [? ? _ (? & ? & ? & ? & _ & _ & _ & _ & _ & ->)]. exists 1%nat; reflexivity.
Qed.

(** Strict decoding of a whole buffer: a text, or an exception. *)
Lemma range_loop_strict e : forall fuel buf res, bytes buf -> whole e buf -> (List.length buf <= fuel)%nat ->
  (exists cps, text (encodes e) cps buf) \/ (exists x, range_loop fuel (next_fn e false) buf res = Throw x).
Proof.
  induction fuel as [|fuel IH]; intros buf res HB HW HL.
  - destruct buf; [left; exists []; constructor|cbn in HL; lia].
  - destruct buf as [|b r]; [left; exists []; constructor|].
    destruct (next_strict_cases e (b :: r) HB HW ltac:(discriminate)) as [(cp & bs & rest & E & Henc & N)|(x & N)].
    + cbn [range_loop]. rewrite N. cbn [bind]. pose proof (encodes_nonempty _ _ _ Henc).
      destruct (utf8_append_spec cp (encodes_scalar _ _ _ Henc)) as (b8 & A & U & _). unfold string_append_utf8. rewrite A. cbn [bind].
      assert (HB' : bytes rest) by (unfold bytes in *; rewrite E in HB; apply Forall_app in HB; tauto).
      assert (HW' : whole e rest) by (rewrite E in HW; exact (whole_tail e bs rest (encodes_whole _ _ _ Henc) HW)).
      assert (List.length rest <= fuel)%nat.
      { apply (f_equal (@List.length Z)) in E. rewrite app_length in E. destruct bs; [congruence|]. cbn [List.length] in *. lia. }
      destruct (IH rest (res ++ b8) HB' HW' ltac:(auto)) as [(cps & T)|(x & T)]; [left|right; eauto].
      exists (cp :: cps). rewrite E. constructor; auto.
    + right. exists x. cbn [range_loop]. rewrite N. reflexivity.
Qed.

Lemma as_utf8_complete e nc cps buf : e = Ucs2 \/ e = Utf16 \/ e = Utf32 -> text (encodes e) cps buf ->
  exists out, string_range_as_utf8_string e nc buf = Ok out /\ text utf8_of cps out.
Proof.
  intros He T. destruct (range_loop_ok e nc cps buf T (S (List.length buf)) [] ltac:(lia)) as (out & E & T').
  exists out. split; auto. destruct He as [-> | [-> | ->]]; exact E.
Qed.

Lemma as_utf8_rejects e buf : e = Ucs2 \/ e = Utf16 \/ e = Utf32 -> bytes buf -> whole e buf ->
  (forall cps, ~ text (encodes e) cps buf) -> exists x, string_range_as_utf8_string e false buf = Throw x.
Proof.
  intros He HB HW N. destruct (range_loop_strict e (S (List.length buf)) buf [] HB HW ltac:(lia)) as [(cps & T)|(x & T)]; [exfalso; eapply N; eauto|].
  exists x. destruct He as [-> | [-> | ->]]; exact T.
Qed.

(** UCS-2 and UTF-32 in no-error mode never fail. *)
Lemma range_loop_noerror e : e = Ucs2 \/ e = Utf32 -> forall fuel buf res, bytes buf -> whole e buf -> (List.length buf <= fuel)%nat ->
  exists out, range_loop fuel (next_fn e true) buf res = Ok out.
Proof.
  intros He. induction fuel as [|fuel IH]; intros buf res HB HW HL.
  - destruct buf; [exists res; reflexivity|cbn in HL; lia].
  - destruct buf as [|b r]; [exists res; reflexivity|].
    assert (Q : exists cp pre rest, next_fn e true (b :: r) = Ok (cp, rest) /\ b :: r = pre ++ rest /\ pre <> [] /\ scalar cp /\ exists k, List.length pre = (k * char_size e)%nat).
    { destruct (noerror_cases e (b :: r) HB HW ltac:(discriminate)) as [(cp & rest & N & N')|((x & _) & pre & rest & N' & E & Hp)];
        try (intros ?; destruct He; congruence).
      - apply next_strict_iff in N; auto; [|discriminate]. destruct N as (bs & Henc & E). exists cp, bs, rest. split; [auto|split; [auto|split; [eapply encodes_nonempty; eauto|split; [eapply encodes_scalar; eauto|eapply encodes_whole; eauto]]]].
      - exists 63, pre, rest. split; [auto|split; [auto|split; [auto|split; [unfold scalar; lia|]]]].
        destruct He as [-> | ->]; cbn [next_fn negb] in N'.
        + unfold noerror_next_ucs2 in N'. destruct r as [|b' r]; [discriminate|]. cbn [load16 bind] in N'.
          assert (rest = r) by (destruct (is_surrogate _); congruence). subst rest.
          apply (f_equal (@List.length Z)) in E. rewrite app_length in E. cbn [List.length] in E. exists 1%nat. cbn. lia.
        + unfold noerror_next_utf32 in N'. destruct r as [|b1 [|b2 [|b3 r]]]; try discriminate. cbn [load32 bind] in N'.
          assert (rest = r) by (destruct (negb _); congruence). subst rest.
          apply (f_equal (@List.length Z)) in E. rewrite app_length in E. cbn [List.length] in E. exists 1%nat. cbn. lia. }
    destruct Q as (cp & pre & rest & N & E & Hp & S & K). cbn [range_loop]. rewrite N. cbn [bind]. unfold string_append_utf8.
    destruct (utf8_append_spec cp S) as (b8 & A & U & _). rewrite A. cbn [bind]. apply IH.
    + unfold bytes in *. rewrite E in HB. apply Forall_app in HB; tauto.
    + rewrite E in HW. exact (whole_tail e pre rest K HW).
    + apply (f_equal (@List.length Z)) in E. rewrite app_length in E. destruct pre; [congruence|]. cbn [List.length] in *. lia.
Qed.
