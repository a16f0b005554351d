(** Lemmas for C145-C151. *)
From Verif Require Import Base EncodingModel EncodingSpec EncodingProofs EncodingProps FixedStrModel FixedStrSpec.
Open Scope Z_scope.

Lemma enc_fun : forall e cp b1 b2, encodes e cp b1 -> encodes e cp b2 -> b1 = b2.
Proof.
  intros e cp b1 b2 H1 H2. set (r := Z.of_nat (List.length b1 + List.length b2)).
  pose proof (append_complete e false cp b1 r H1 ltac:(unfold r; lia)) as A.
  pose proof (append_complete e false cp b2 r H2 ltac:(unfold r; lia)) as B. rewrite A in B. congruence.
Qed.
Lemma text_fun : forall e cps s1, text (encodes e) cps s1 -> forall s2, text (encodes e) cps s2 -> s1 = s2.
Proof.
  intros e cps s1 H. induction H as [|cp bs cps rest X H IH]; intros s2 Y; inversion Y; subst; [reflexivity|].
  f_equal; [|apply IH; assumption]. eapply enc_fun; eassumption.
Qed.
Lemma zero_unit : forall e bs, encodes e 0 bs <-> bs = repeat 0 (char_size e).
Proof.
  assert (E : forall e, encodes e 0 (repeat 0 (char_size e))).
  { intros []; cbn [char_size encodes repeat].
    - constructor. lia.
    - constructor; [unfold scalar; lia|lia|]. exists 0, 0. unfold byte. repeat split; lia.
    - apply (utf8_1 0). lia.
    - apply utf16_1; [unfold scalar; lia|lia|]. exists 0, 0. unfold byte. repeat split; lia.
    - constructor; [unfold scalar; lia|]. exists 0, 0, 0, 0. unfold byte. repeat split; lia. }
  intros e bs. split; [intros H; exact (enc_fun e 0 _ _ H (E e))|intros ->; apply E].
Qed.
Lemma enc_units : forall e cp bs, encodes e cp bs -> exists k, 1 <= k /\ Z.of_nat (List.length bs) = k * Z.of_nat (char_size e).
Proof.
  intros e cp bs H. destruct (encodes_whole e cp bs H) as [k K]. pose proof (encodes_nonempty e cp bs H) as N.
  exists (Z.of_nat k). destruct bs; [congruence|]. cbn [List.length] in *. split; [destruct k; lia|]. rewrite K. apply Nat2Z.inj_mul.
Qed.
Lemma enc_len4 : forall cp bs, encodes Utf8 cp bs -> (List.length bs <= 4)%nat.
Proof. intros cp bs H. destruct H; cbn; lia. Qed.
Lemma char_size_pos : forall e, 1 <= Z.of_nat (char_size e) <= 4.
Proof. intros []; cbn; lia. Qed.
Lemma units_minus : forall e room n, units e room -> (exists k, n = k * Z.of_nat (char_size e)) -> n <= room -> units e (room - n).
Proof.
  intros e room n (a & A & ->) (k & ->) L. exists (a - k). pose proof (char_size_pos e). split; [nia|]. ring.
Qed.
Lemma units_pos : forall e room, units e room -> 0 < room -> exists k, 1 <= k /\ room = k * Z.of_nat (char_size e).
Proof. intros e room (k & K & ->) P. exists k. pose proof (char_size_pos e). split; [nia|reflexivity]. Qed.

(** Which code points have an encoding. *)
Lemma representable_dec : forall e cp, scalar cp -> (exists bs, encodes e cp bs) \/ (forall bs, ~ encodes e cp bs).
Proof.
  intros e cp S. destruct (C09_representable cp S) as (R8 & R16 & R32 & R2 & R1). destruct e.
  - destruct (Z.lt_ge_cases cp 0x80) as [L|L]; [left; exact (R1 L)|right]. intros bs H. inversion H; subst. lia.
  - destruct (Z.lt_ge_cases cp 0x10000) as [L|L]; [left; exact (R2 L)|right]. intros bs H. inversion H; subst. lia.
  - left; exact R8.
  - left; exact R16.
  - left; exact R32.
Qed.

Lemma scalar_u32 : forall cp, scalar cp -> 0 <= cp < 2 ^ 32.
Proof. intros cp [S _]. lia. Qed.
(** Checked encoders. *)
Lemma append_checked : forall e cp room, scalar cp -> units e room -> 0 < room ->
  (exists bs, encodes e cp bs /\ Z.of_nat (List.length bs) <= room /\ append_fn e false cp room = Ok (bs, room - Z.of_nat (List.length bs))) \/
  (exists x, append_fn e false cp room = Throw x).
Proof.
  intros e cp room S U P. destruct (units_pos e room U P) as (k & K & E).
  destruct (representable_dec e cp S) as [(bs & B)|N].
  - destruct (Z.le_gt_cases (Z.of_nat (List.length bs)) room) as [L|L].
    + left. exists bs. split; [exact B|]. split; [exact L|]. apply append_complete; assumption.
    + right. pose proof (C46_append_in_bounds e false cp k (scalar_u32 cp S) K) as F. rewrite <- E in F.
      destruct (append_fn e false cp room) as [[b r]|x| |] eqn:A; cbn in F; try contradiction; [|eauto]. exfalso.
      destruct F as (_ & F1 & F2).
      destruct e; try (assert (X : encodes _ cp b) by (eapply append_sound; [|apply scalar_u32; exact S|exact A]; auto);
                       rewrite (enc_fun _ _ _ _ B X) in L; lia).
      * cbn [append_fn negb] in A. unfold append_utf16 in A. inversion B as [cp' bs' S' L' W|h l b1 b2 Hh Hl W1 W2]; subst.
        -- destruct W as (x & y & _ & _ & _ & ->). cbn [List.length char_size] in *. lia.
        -- destruct W1 as (x & y & _ & _ & _ & ->). destruct W2 as (x2 & y2 & _ & _ & _ & ->). cbn [app List.length char_size] in L, A, K |- *.
           cbn [char_size] in A. replace (k * Z.of_nat 2) with 2 in A by lia.
           destruct (Z.ltb_spec 0xffff (0x10000 + 1024 * h + l)); [|lia]. cbn in A. discriminate.
      * inversion B as [cp' bs' S' W]; subst. destruct W as (x1 & x2 & x3 & x4 & _ & _ & _ & _ & _ & ->). cbn in L. lia.
  - right. pose proof (C46_append_in_bounds e false cp k (scalar_u32 cp S) K) as F. rewrite <- E in F.
    destruct (append_fn e false cp room) as [[b r]|x| |] eqn:A; cbn in F; try contradiction; [|eauto]. exfalso.
    destruct (C09_representable cp S) as (R8 & R16 & R32 & _).
    destruct e; try (apply (N b); eapply append_sound; [|apply scalar_u32; exact S|exact A]; auto; fail).
    + destruct R16 as [q Q]. exact (N q Q).
    + destruct R32 as [q Q]. exact (N q Q).
Qed.
(** Encoders that do not check. *)
Lemma append_nocheck : forall e cp room, scalar cp -> units e room -> 0 < room ->
  (exists bs, encodes e cp bs /\ Z.of_nat (List.length bs) <= room /\ append_fn e true cp room = Ok (bs, room - Z.of_nat (List.length bs))) \/
  ((forall bs, encodes e cp bs -> room < Z.of_nat (List.length bs)) /\ (exists bs, encodes e cp bs) /\
     append_fn e true cp room = Ok (zeros room, 0)) \/
  ((forall bs, ~ encodes e cp bs) /\
     exists bs, encodes e 63 bs /\ Z.of_nat (List.length bs) <= room /\ append_fn e true cp room = Ok (bs, room - Z.of_nat (List.length bs))).
Proof.
  intros e cp room S U P. destruct (units_pos e room U P) as (k & K & E).
  assert (ZL : Z.of_nat (List.length (zeros room)) = room) by (unfold zeros; rewrite repeat_length; lia).
  destruct (representable_dec e cp S) as [(bs & B)|N].
  - destruct (Z.le_gt_cases (Z.of_nat (List.length bs)) room) as [L|L].
    + left. exists bs. split; [exact B|]. split; [exact L|]. apply append_complete; assumption.
    + right. left. split; [intros b Q; rewrite (enc_fun _ _ _ _ Q B); exact L|]. split; [exists bs; exact B|].
      destruct e.
      * inversion B; subst. cbn in L. lia.
      * inversion B as [? ? ? ? W]; subst. destruct W as (x & y & _ & _ & _ & ->). cbn [List.length char_size] in *. lia.
      * cbn [append_fn negb]. unfold noerror_append_utf8. pose proof (enc_len4 cp bs B).
        destruct (utf8_append_spec cp S) as (q & Q & Q' & _). rewrite (utf8_of_unique _ _ _ Q' B) in Q. rewrite Q.
        destruct (Z.leb_spec 6 room); [lia|]. cbn [bind]. destruct (Z.leb_spec (Z.of_nat (List.length bs)) room); [lia|].
        change (repeat 0 (Z.to_nat room)) with (zeros room). rewrite store_ok by lia. rewrite ZL. f_equal. f_equal. lia.
      * cbn [append_fn negb]. unfold noerror_append_utf16. inversion B as [cp' bs' S' L' W|h l b1 b2 Hh Hl W1 W2]; subst.
        -- destruct W as (x & y & _ & _ & _ & ->). cbn in L. lia.
        -- destruct W1 as (x & y & _ & _ & _ & ->). destruct W2 as (x2 & y2 & _ & _ & _ & ->). cbn [app List.length char_size] in L, K |- *.
           replace (k * Z.of_nat 2) with 2 by lia.
           destruct (Z.ltb_spec 0xffff (0x10000 + 1024 * h + l)); [|lia]. reflexivity.
      * inversion B as [cp' bs' S' W]; subst. destruct W as (x1 & x2 & x3 & x4 & _ & _ & _ & _ & _ & ->). cbn [List.length char_size] in *. lia.
  - right. right. split; [exact N|].
    destruct (C09_representable cp S) as (R8 & R16 & R32 & _).
    assert (CR : Z.of_nat (char_size e) <= room) by (rewrite E; pose proof (char_size_pos e); nia).
    assert (G : e = Ascii \/ e = Ucs2).
    { destruct e; auto; exfalso; [destruct R8 as [q Q]|destruct R16 as [q Q]|destruct R32 as [q Q]]; exact (N q Q). }
    destruct (append_substitutes e cp room G (scalar_u32 cp S) CR N) as (b & A & B').
    exists b. split; [exact B'|].
    assert (LB : List.length b = char_size e).
    { destruct G as [-> | ->]; cbn [encodes] in B'; inversion B'; subst; [reflexivity|].
      match goal with W : word16 _ _ |- _ => destruct W as (x & y & _ & _ & _ & ->) end. reflexivity. }
    rewrite LB. split; assumption.
Qed.

(** ** The loops *)
(** How a loop ends its source: at the end, or with [stop] at a zero unit. *)
Definition ended (stop : bool) (e : enc) (tl : list Z) : Prop :=
  tl = [] \/ (stop = true /\ exists rest, tl = repeat 0 (char_size e) ++ rest).
Definition no0 (stop : bool) (cps : list Z) : Prop := stop = true -> ~ In 0 cps.

Lemma step_ok : forall stop se de nc cp b1 b2 tl f out room,
  encodes se cp b1 -> encodes de cp b2 -> Z.of_nat (List.length b2) <= room -> (stop = true -> cp <> 0) ->
  copy_loop stop (next_fn se nc) (append_fn de nc) (S f) (b1 ++ tl) out room =
  copy_loop stop (next_fn se nc) (append_fn de nc) f tl (out ++ b2) (room - Z.of_nat (List.length b2)).
Proof.
  intros stop se de nc cp b1 b2 tl f out room E1 E2 L N.
  pose proof (encodes_nonempty se cp b1 E1) as P1. pose proof (encodes_nonempty de cp b2 E2) as P2.
  destruct (b1 ++ tl) as [|c q] eqn:Q; [destruct b1; [congruence|discriminate]|]. cbn [copy_loop].
  destruct (Z.ltb_spec 0 room) as [_|B]; [|destruct b2; [congruence|cbn [List.length] in L; lia]].
  rewrite <- Q, (next_complete se nc cp b1 tl E1). cbn [bind].
  replace (stop && (cp =? 0)) with false.
  - rewrite (append_complete de nc cp b2 room E2 L). reflexivity.
  - destruct stop; [|reflexivity]. specialize (N eq_refl). destruct (Z.eqb_spec cp 0); [contradiction|reflexivity].
Qed.
Lemma copy_text : forall stop se de nc cps b1, text (encodes se) cps b1 -> forall b2, text (encodes de) cps b2 -> forall tl f out room,
  Z.of_nat (List.length b2) <= room -> no0 stop cps ->
  copy_loop stop (next_fn se nc) (append_fn de nc) (List.length cps + f) (b1 ++ tl) out room =
  copy_loop stop (next_fn se nc) (append_fn de nc) f tl (out ++ b2) (room - Z.of_nat (List.length b2)).
Proof.
  intros stop se de nc cps b1 H. induction H as [|cp bs cps rest X H IH]; intros b2 Y tl f out room L N; inversion Y as [|cp' c2 cps' r2 X2 Y2]; subst.
  - cbn [List.length Nat.add app]. rewrite app_nil_r. f_equal. cbn [List.length]. lia.
  - rewrite app_length, Nat2Z.inj_add in L. cbn [List.length Nat.add]. rewrite <- app_assoc.
    rewrite (step_ok stop se de nc cp bs c2 (rest ++ tl) (List.length cps + f) out room X X2); [|lia|intros ST E; apply (N ST); left; exact E].
    rewrite (IH r2 Y2 tl f); [|lia|intros ST I; apply (N ST); right; exact I].
    rewrite <- app_assoc, app_length, Nat2Z.inj_add. f_equal. lia.
Qed.
Lemma text_count : forall e cps bs, text (encodes e) cps bs -> (List.length cps <= List.length bs)%nat.
Proof.
  intros e cps bs H. induction H as [|cp b cps rest X H IH]; [cbn; lia|]. pose proof (encodes_nonempty e cp b X). rewrite app_length.
  destruct b; [congruence|]. cbn [List.length]. lia.
Qed.
(** The end of a source. *)
Lemma ended_ok : forall stop se de nc tl f out room, ended stop se tl -> 0 < room ->
  copy_loop stop (next_fn se nc) (append_fn de nc) (S f) tl out room = Ok ([], out, room).
Proof.
  intros stop se de nc tl f out room [-> |(ST & rest & ->)] P; [reflexivity|].
  assert (E0 : encodes se 0 (repeat 0 (char_size se))) by (apply zero_unit; reflexivity).
  pose proof (encodes_nonempty se 0 _ E0) as NE.
  destruct (repeat 0 (char_size se) ++ rest) as [|c q] eqn:Q; [destruct (repeat 0 (char_size se)); [congruence|discriminate]|].
  cbn [copy_loop]. destruct (Z.ltb_spec 0 room) as [_|B]; [|lia].
  rewrite <- Q, (next_complete se nc 0 _ rest E0), ST. reflexivity.
Qed.
Lemma copy_full : forall stop next app f tl out, copy_loop stop next app f tl out 0 = Ok (tl, out, 0).
Proof. intros stop next app f tl out. destruct f, tl; reflexivity. Qed.

(** ** What a checked loop does: any bytes. *)
Lemma checked_cases : forall stop se de fuel src out room, bytes src -> whole se src -> units de room -> 0 <= room -> (Z.to_nat room < fuel)%nat ->
  (exists cps pre tl bs, src = pre ++ tl /\ text (encodes se) cps pre /\ text (encodes de) cps bs /\ no0 stop cps /\
     ((ended stop se tl /\ Z.of_nat (List.length bs) <= room /\ (tl = [] \/ Z.of_nat (List.length bs) < room) /\
       copy_loop stop (next_fn se false) (append_fn de false) fuel src out room = Ok ([], out ++ bs, room - Z.of_nat (List.length bs))) \/
      (tl <> [] /\ Z.of_nat (List.length bs) = room /\
       copy_loop stop (next_fn se false) (append_fn de false) fuel src out room = Ok (tl, out ++ bs, 0)))) \/
  (exists x, copy_loop stop (next_fn se false) (append_fn de false) fuel src out room = Throw x).
Proof.
  intros stop se de fuel. induction fuel as [|fuel IH]; intros src out room HB HW HU HR HF; [lia|].
  destruct src as [|c q] eqn:Q.
  - left. exists [], [], [], []. split; [reflexivity|]; split; [constructor|]; split; [constructor|]; split; [intros _ []|]. left. split; [left; reflexivity|]. split; [cbn; lia|]. split; [left; reflexivity|].
    rewrite app_nil_r. cbn [copy_loop List.length]. do 2 f_equal. lia.
  - rewrite <- Q in *. assert (NE : src <> []) by (rewrite Q; discriminate).
    destruct (Z.ltb_spec 0 room) as [P|B].
    2: { assert (R0 : room = 0) by lia. rewrite R0. left. exists [], [], src, []. split; [reflexivity|]; split; [constructor|]; split; [constructor|]; split; [intros _ []|].
         right. split; [exact NE|]. split; [reflexivity|]. rewrite copy_full, app_nil_r. reflexivity. }
    destruct (next_strict_cases se src HB HW NE) as [(cp & b1 & rest & E & X & N)|(x & N)].
    2: { right. exists x. rewrite Q. cbn [copy_loop]. destruct (Z.ltb_spec 0 room); [|lia]. rewrite <- Q, N. reflexivity. }
    destruct (stop && (cp =? 0)) eqn:ST.
    { apply andb_prop in ST as (ST1 & ST2). apply Z.eqb_eq in ST2. subst cp. left. exists [], [], src, []. split; [reflexivity|]; split; [constructor|]; split; [constructor|]; split; [intros _ []|].
      left. split; [right; split; [exact ST1|exists rest; rewrite E; f_equal; apply zero_unit; exact X]|]. split; [cbn; lia|]. split; [right; cbn; lia|].
      rewrite app_nil_r. rewrite Q. cbn [copy_loop]. destruct (Z.ltb_spec 0 room); [|lia]. rewrite <- Q, N. cbn [bind]. rewrite ST1. cbn [andb Z.eqb List.length].
      do 2 f_equal. lia. }
    destruct (append_checked de cp room (encodes_scalar _ _ _ X) HU P) as [(b2 & X2 & L & A)|(x & A)].
    2: { right. exists x. rewrite Q. cbn [copy_loop]. destruct (Z.ltb_spec 0 room); [|lia]. rewrite <- Q, N. cbn [bind]. rewrite ST, A. reflexivity. }
    assert (S1 : forall out, copy_loop stop (next_fn se false) (append_fn de false) (S fuel) src out room =
      copy_loop stop (next_fn se false) (append_fn de false) fuel rest (out ++ b2) (room - Z.of_nat (List.length b2))).
    { intros o. rewrite Q. cbn [copy_loop]. destruct (Z.ltb_spec 0 room); [|lia]. rewrite <- Q, N. cbn [bind]. rewrite ST, A. reflexivity. }
    rewrite S1. pose proof (encodes_nonempty de cp b2 X2) as NE2.
    assert (P2 : 1 <= Z.of_nat (List.length b2)) by (destruct b2; [congruence|cbn [List.length]; lia]).
    assert (NZ : stop = true -> cp <> 0).
    { intros -> ->. discriminate ST. }
    destruct (IH rest (out ++ b2) (room - Z.of_nat (List.length b2))) as [(cps & pre & tl & bs & E' & T1 & T2 & N0 & C)|T].
    + rewrite E in HB. apply Forall_app in HB as [_ HB]. exact HB.
    + apply (whole_tail se b1); [exact (encodes_whole _ _ _ X)|]. rewrite <- E. exact HW.
    + apply units_minus; [exact HU| |exact L]. destruct (enc_units de cp b2 X2) as (k & _ & K). exists k. exact K.
    + lia.
    + lia.
    + left. exists (cp :: cps), (b1 ++ pre), tl, (b2 ++ bs). split; [rewrite E, E', app_assoc; reflexivity|].
      split; [constructor; assumption|]. split; [constructor; assumption|]. split; [intros S0 [I|I]; [exact (NZ S0 I)|exact (N0 S0 I)]|].
      rewrite app_length, Nat2Z.inj_add. destruct C as [(C1 & C2 & C4 & C3)|(C1 & C2 & C3)]; [left|right]; (split; [exact C1|]; split; [lia|]); [split; [destruct C4; [left; assumption|right; lia]|]|]; rewrite C3, app_assoc; f_equal. f_equal. lia.
    + right. exact T.
Qed.

Lemma utf8_exists : forall cps e bs, text (encodes e) cps bs -> exists s, text utf8_of cps s.
Proof.
  intros cps e bs H. induction H as [|cp b cps rest X H IH]; [exists []; constructor|].
  destruct IH as (s & S). destruct (C09_representable cp (encodes_scalar _ _ _ X)) as ((q & Q) & _). exists (q ++ s). constructor; assumption.
Qed.
Lemma text_bytes : forall e cps bs, text (encodes e) cps bs -> bytes bs.
Proof.
  intros e cps bs H. induction H as [|cp b cps rest X H IH]; [constructor|]. apply Forall_app. split; [exact (encodes_bytes _ _ _ X)|exact IH].
Qed.
(** ** C146, C148: checked assignment. *)
Lemma set_checked : forall e size src, bytes src -> units e size ->
  (exists buf, set_from_utf8 e false size src = Ok buf) \/ (exists x, set_from_utf8 e false size src = Throw x).
Proof.
  intros e size src HB HU. assert (H0 : 0 <= size) by (destruct HU as (k & K & ->); pose proof (char_size_pos e); nia). unfold set_from_utf8.
  destruct (checked_cases false Utf8 e (S (Z.to_nat size)) src [] size HB ltac:(exists (List.length src); cbn; lia) HU H0 ltac:(lia)) as [(cps & pre & tl & bs & _ & _ & _ & _ & [(_ & _ & _ & ->)|(T & _ & ->)])|(x & ->)]; cbn [bind finish].
  - left. eexists; reflexivity.
  - right. destruct tl; [congruence|]. cbn [negb]. eexists; reflexivity.
  - right. eexists; reflexivity.
Qed.
Lemma set_checked_iff : forall e size src buf, bytes src -> units e size ->
  (set_from_utf8 e false size src = Ok buf <-> exists cps, text utf8_of cps src /\ stores e size cps buf).
Proof.
  intros e size src buf HB HU. assert (H0 : 0 <= size) by (destruct HU as (k & K & ->); pose proof (char_size_pos e); nia). unfold set_from_utf8. split.
  - intros H. destruct (checked_cases false Utf8 e (S (Z.to_nat size)) src [] size HB ltac:(exists (List.length src); cbn; lia) HU H0 ltac:(lia)) as [(cps & pre & tl & bs & E & T1 & T2 & _ & [(D & L & _ & C)|(T & L & C)])|(x & C)]; rewrite C in H; cbn [bind finish] in H.
    + injection H as <-. destruct D as [-> |(F & _)]; [|discriminate]. rewrite app_nil_r in E. subst src. exists cps. split; [exact T1|]. exists bs. split; [exact T2|]. split; [exact L|reflexivity].
    + destruct tl; [congruence|]. discriminate.
    + discriminate.
  - intros (cps & T1 & bs & T2 & L & ->). pose proof (text_count e cps bs T2) as K.
    pose proof (copy_text false Utf8 e false cps src T1 bs T2 [] (S (Z.to_nat size) - List.length cps) [] size L ltac:(intros F; discriminate)) as C.
    rewrite app_nil_r in C. replace (List.length cps + (S (Z.to_nat size) - List.length cps))%nat with (S (Z.to_nat size)) in C by lia. rewrite C.
    destruct (S (Z.to_nat size) - List.length cps)%nat; reflexivity.
Qed.
Lemma fixed_checked : forall se de size src, bytes src -> whole se src -> units de size ->
  (exists buf, fixed_to_fixed se de false size src = Ok buf) \/ (exists x, fixed_to_fixed se de false size src = Throw x).
Proof.
  intros se de size src HB HW HU. assert (H0 : 0 <= size) by (destruct HU as (k & K & ->); pose proof (char_size_pos de); nia). unfold fixed_to_fixed.
  destruct (checked_cases true se de (S (Z.to_nat size)) src [] size HB HW HU H0 ltac:(lia)) as [(cps & pre & tl & bs & _ & _ & _ & _ & [(_ & _ & _ & ->)|(T & _ & ->)])|(x & ->)]; cbn [bind finish].
  - left. eexists; reflexivity.
  - right. destruct tl; [congruence|]. cbn [negb]. eexists; reflexivity.
  - right. eexists; reflexivity.
Qed.
Lemma fixed_checked_iff : forall se de size src buf, bytes src -> whole se src -> units de size ->
  (fixed_to_fixed se de false size src = Ok buf <->
   exists cps, holds se cps src /\ stores de size cps buf /\ (text (encodes se) cps src \/ (fits_in de (size - 1) cps))).
Proof.
  intros se de size src buf HB HW HU. assert (H0 : 0 <= size) by (destruct HU as (k & K & ->); pose proof (char_size_pos de); nia). unfold fixed_to_fixed. split.
  - intros H. destruct (checked_cases true se de (S (Z.to_nat size)) src [] size HB HW HU H0 ltac:(lia)) as [(cps & pre & tl & bs & E & T1 & T2 & N & [(D & L & M & C)|(T & L & C)])|(x & C)]; rewrite C in H; cbn [bind finish] in H.
    + injection H as <-. exists cps. split; [|split].
      * split; [exact (N eq_refl)|]. exists pre, tl. split; [exact T1|]. split; [exact E|]. destruct D as [D|(_ & D)]; [left|right]; exact D.
      * exists bs. split; [exact T2|]. split; [exact L|reflexivity].
      * destruct M as [-> |M]; [left; rewrite E, app_nil_r; exact T1|right]. exists bs. split; [exact T2|lia].
    + destruct tl; [congruence|]. discriminate.
    + discriminate.
  - intros (cps & (N & pre & tl & T1 & -> & D) & (bs & T2 & L & ->) & M). pose proof (text_count de cps bs T2) as K.
    pose proof (copy_text true se de false cps pre T1 bs T2 tl (S (Z.to_nat size) - List.length cps) [] size L (fun _ => N)) as C.
    replace (List.length cps + (S (Z.to_nat size) - List.length cps))%nat with (S (Z.to_nat size)) in C by lia. rewrite C.
    destruct (S (Z.to_nat size) - List.length cps)%nat as [|f] eqn:F; [lia|].
    assert (G : tl = [] \/ 0 < size - Z.of_nat (List.length bs)).
    { destruct M as [M|(b' & M & M')]; [|right; rewrite (text_fun de cps bs T2 b' M); lia]. left.
      pose proof (text_fun se cps pre T1 _ M) as Q. assert (LL := f_equal (@List.length Z) Q). rewrite app_length in LL. destruct tl; [reflexivity|cbn in LL; lia]. }
    destruct G as [-> |G]; [reflexivity|]. rewrite ended_ok; [reflexivity| |exact G]. destruct D as [D|D]; [left; exact D|right; split; [reflexivity|exact D]].
Qed.

(** ** C147, C148: assignment that does not check. *)
Lemma fits_nil : forall e size, 0 <= size -> fits_in e size [].
Proof. intros e size H. exists []. split; [constructor|cbn; lia]. Qed.
Lemma cut_cons : forall e room cp b cps pre, encodes e cp b -> Z.of_nat (List.length b) <= room ->
  cut e (room - Z.of_nat (List.length b)) cps pre -> cut e room (cp :: cps) (cp :: pre).
Proof.
  intros e room cp b cps pre X L (post & -> & (bs & T & L2) & N). exists post. split; [reflexivity|]. split.
  - exists (b ++ bs). split; [constructor; assumption|]. rewrite app_length, Nat2Z.inj_add. lia.
  - intros c p E (q & Q & LQ). inversion Q as [|cp' b' cps' r' X' T']; subst. rewrite (enc_fun _ _ _ _ X' X) in LQ. rewrite app_length, Nat2Z.inj_add in LQ.
    apply (N c p eq_refl). exists r'. split; [exact T'|lia].
Qed.
Lemma cut_none : forall e room cp cps, 0 <= room -> (forall b, encodes e cp b -> room < Z.of_nat (List.length b)) -> cut e room (cp :: cps) [].
Proof.
  intros e room cp cps H N. exists (cp :: cps). split; [reflexivity|]. split; [apply fits_nil; exact H|].
  intros c p [= <- <-] (q & Q & LQ). inversion Q as [|cp' b' cps' r' X' T']; subst. rewrite app_length, Nat2Z.inj_add in LQ. specialize (N b' X'). lia.
Qed.
Lemma replaced_exists : forall e cp, scalar cp -> exists cp', replaced e cp cp'.
Proof.
  intros e cp S. destruct (representable_dec e cp S) as [R|N]; [exists cp; left; auto|exists 63; right; auto].
Qed.
Lemma replaced_all : forall se e cps b, text (encodes se) cps b -> exists cps', Forall2 (replaced e) cps cps'.
Proof.
  intros se e cps b H. induction H as [|cp b cps rest X H (cps' & IH)]; [exists []; constructor|].
  destruct (replaced_exists e cp (encodes_scalar _ _ _ X)) as (cp' & R). exists (cp' :: cps'). constructor; assumption.
Qed.
Lemma encodes_63 : forall e, exists b, encodes e 63 b.
Proof.
  intros e. assert (S : scalar 63) by (unfold scalar; lia). destruct (C09_representable 63 S) as (R8 & R16 & R32 & R2 & R1).
  destruct e; [apply R1; lia|apply R2; lia|exact R8|exact R16|exact R32].
Qed.
Lemma replaced_encodes : forall e cp cp', replaced e cp cp' -> exists b, encodes e cp' b.
Proof. intros e cp cp' [(R & ->)|(_ & ->)]; [exact R|apply encodes_63]. Qed.

Lemma nocheck_text : forall stop se de cps b1, text (encodes se) cps b1 -> no0 stop cps -> forall tl, ended stop se tl ->
  forall fuel out room, units de room -> 0 <= room -> (Z.to_nat room < fuel)%nat ->
  exists cps' pre bs, Forall2 (replaced de) cps cps' /\ cut de room cps' pre /\ text (encodes de) pre bs /\ Z.of_nat (List.length bs) <= room /\
    (do r <- copy_loop stop (next_fn se true) (append_fn de true) fuel (b1 ++ tl) out room; finish false r) = Ok (out ++ bs ++ zeros (room - Z.of_nat (List.length bs))).
Proof.
  intros stop se de cps b1 H. induction H as [|cp b cps rest X H IH]; intros N0 tl D fuel out room HU HR HF.
  - exists [], [], []. split; [constructor|]. split; [exists []; split; [reflexivity|]; split; [apply fits_nil; exact HR|intros ? ? [=]]|]. split; [constructor|]. split; [cbn; lia|].
    cbn [app List.length]. replace (room - Z.of_nat 0) with room by lia. destruct fuel as [|fuel]; [lia|].
    destruct (Z.lt_ge_cases 0 room) as [P|P].
    + rewrite ended_ok; [reflexivity|exact D|exact P].
    + replace room with 0 by lia. rewrite copy_full. cbn [bind finish]. destruct tl; reflexivity.
  - destruct (replaced_all se de cps rest H) as (R & RA). destruct (replaced_exists de cp (encodes_scalar _ _ _ X)) as (cp0 & R0).
    destruct (Z.lt_ge_cases 0 room) as [P|P].
    2: { exists (cp0 :: R), [], []. split; [constructor; assumption|]. split.
         - apply cut_none; [exact HR|]. intros q Q. pose proof (encodes_nonempty _ _ _ Q). destruct q; [congruence|cbn [List.length]; lia].
         - split; [constructor|]. split; [cbn; lia|]. replace room with 0 by lia. rewrite copy_full. cbn [bind finish]. destruct ((b ++ rest) ++ tl); reflexivity. }
    destruct fuel as [|fuel]; [lia|].
    assert (NZ : stop && (cp =? 0) = false).
    { destruct stop; [|reflexivity]. cbn [andb]. apply Z.eqb_neq. intros ->. apply (N0 eq_refl). left. reflexivity. }
    assert (S1 : forall bs r, append_fn de true cp room = Ok (bs, r) ->
      copy_loop stop (next_fn se true) (append_fn de true) (S fuel) ((b ++ rest) ++ tl) out room = copy_loop stop (next_fn se true) (append_fn de true) fuel (rest ++ tl) (out ++ bs) r).
    { intros bs r A. rewrite <- app_assoc. pose proof (encodes_nonempty _ _ _ X) as NE. pose proof (next_complete se true cp b (rest ++ tl) X) as NX.
      destruct (b ++ rest ++ tl) as [|c q] eqn:Q; [destruct b; [congruence|discriminate]|]. cbn [copy_loop]. destruct (Z.ltb_spec 0 room); [|lia]. rewrite NX. cbn [bind]. rewrite NZ, A. reflexivity. }
    assert (N0' : no0 stop cps) by (intros S I; exact (N0 S (or_intror I))).
    assert (G : forall cp' bs, replaced de cp cp' -> encodes de cp' bs -> Z.of_nat (List.length bs) <= room -> append_fn de true cp room = Ok (bs, room - Z.of_nat (List.length bs)) ->
      exists cps' pre bs, Forall2 (replaced de) (cp :: cps) cps' /\ cut de room cps' pre /\ text (encodes de) pre bs /\ Z.of_nat (List.length bs) <= room /\
        (do r <- copy_loop stop (next_fn se true) (append_fn de true) (S fuel) ((b ++ rest) ++ tl) out room; finish false r) = Ok (out ++ bs ++ zeros (room - Z.of_nat (List.length bs)))).
    { intros cp' bs RR EE L A. pose proof (encodes_nonempty _ _ _ EE) as NE.
      assert (P2 : 1 <= Z.of_nat (List.length bs)) by (destruct bs; [congruence|cbn [List.length]; lia]).
      destruct (IH N0' tl D fuel (out ++ bs) (room - Z.of_nat (List.length bs))) as (cps' & pre & bs' & F & C & T & L' & E).
      - apply units_minus; [exact HU| |exact L]. destruct (enc_units de cp' bs EE) as (k & _ & K). exists k. exact K.
      - lia.
      - lia.
      - exists (cp' :: cps'), (cp' :: pre), (bs ++ bs'). split; [constructor; assumption|]. split; [apply (cut_cons de room cp' bs); assumption|]. split; [constructor; assumption|].
        rewrite app_length, Nat2Z.inj_add. split; [lia|]. rewrite (S1 bs _ A), E, <- !app_assoc. rewrite Z.sub_add_distr. reflexivity. }
    destruct (append_nocheck de cp room (encodes_scalar _ _ _ X) HU P) as [(bs & B & L & A)|[(B & B2 & A)|(B & bs & B2 & L & A)]].
    + apply (G cp bs); auto. left. split; [exists bs; exact B|reflexivity].
    + exists (cp :: R), [], []. split; [constructor; [left; auto|assumption]|]. split; [apply cut_none; [exact HR|exact B]|]. split; [constructor|]. split; [cbn; lia|].
      rewrite (S1 _ _ A), copy_full. cbn [bind finish app List.length]. replace (room - Z.of_nat 0) with room by lia. rewrite app_nil_r. destruct (rest ++ tl); reflexivity.
    + apply (G 63 bs); auto. right. auto.
Qed.

(** Any bytes, without checks, from UTF-8. *)
Lemma next_utf8_total : forall buf, bytes buf -> buf <> [] -> exists cp rest, next_fn Utf8 true buf = Ok (cp, rest) /\ scalar cp /\ bytes rest.
Proof.
  intros buf HB NE. assert (W : whole Utf8 buf) by (exists (List.length buf); cbn; lia).
  assert (S63 : scalar 63) by (unfold scalar; lia).
  destruct (Z.le_gt_cases 0x80 (hd 0 buf)) as [A|A]; [destruct (Z.lt_ge_cases (hd 0 buf) 0xC0) as [B|B]; [|destruct (Z.le_gt_cases 0xF8 (hd 0 buf)) as [C|C]]|].
  1, 2: exists 63, buf; split; [apply noerror_utf8_stuck; [exact HB|exact NE|unfold bad_lead8; lia]|split; assumption].
  all: destruct (noerror_cases Utf8 buf HB W NE ltac:(intros _; unfold bad_lead8; lia) ltac:(discriminate)) as [(cp & rest & N & N')|(_ & pre & rest & N & E & _)].
  1, 3: exists cp, rest; split; [exact N'|]; apply (next_strict_iff Utf8 buf cp rest HB W NE) in N as (bs & X & E);
        split; [exact (encodes_scalar _ _ _ X)|rewrite E in HB; apply Forall_app in HB as [_ HB]; exact HB].
  all: exists 63, rest; split; [exact N|]; split; [exact S63|rewrite E in HB; apply Forall_app in HB as [_ HB]; exact HB].
Qed.
Lemma nocheck_total : forall e fuel src out room, bytes src -> units e room -> 0 <= room -> (Z.to_nat room < fuel)%nat ->
  exists bs, (do r <- copy_loop false (next_fn Utf8 true) (append_fn e true) fuel src out room; finish false r) = Ok (out ++ bs) /\ Z.of_nat (List.length bs) = room.
Proof.
  intros e fuel. induction fuel as [|fuel IH]; intros src out room HB HU HR HF; [lia|].
  assert (ZL : Z.of_nat (List.length (zeros room)) = room) by (unfold zeros; rewrite repeat_length; lia).
  destruct src as [|c q] eqn:Q; [exists (zeros room); split; [reflexivity|exact ZL]|]. rewrite <- Q in *.
  assert (NE : src <> []) by (rewrite Q; discriminate).
  destruct (Z.lt_ge_cases 0 room) as [P|P].
  2: { assert (R0 : room = 0) by lia. rewrite R0. exists []. rewrite copy_full. cbn [bind finish]. split; [destruct src; rewrite ?app_nil_r; reflexivity|reflexivity]. }
  destruct (next_utf8_total src HB NE) as (cp & rest & N & S & HB').
  assert (S1 : forall bs r, append_fn e true cp room = Ok (bs, r) ->
    copy_loop false (next_fn Utf8 true) (append_fn e true) (Datatypes.S fuel) src out room = copy_loop false (next_fn Utf8 true) (append_fn e true) fuel rest (out ++ bs) r).
  { intros bs r A. rewrite Q. cbn [copy_loop]. destruct (Z.ltb_spec 0 room); [|lia]. rewrite <- Q, N. cbn [bind andb]. rewrite A. reflexivity. }
  assert (G : forall cp' bs, encodes e cp' bs -> Z.of_nat (List.length bs) <= room -> append_fn e true cp room = Ok (bs, room - Z.of_nat (List.length bs)) ->
    exists bs, (do r <- copy_loop false (next_fn Utf8 true) (append_fn e true) (Datatypes.S fuel) src out room; finish false r) = Ok (out ++ bs) /\ Z.of_nat (List.length bs) = room).
  { intros cp' bs EE L A. pose proof (encodes_nonempty _ _ _ EE) as NE2.
    assert (P2 : 1 <= Z.of_nat (List.length bs)) by (destruct bs; [congruence|cbn [List.length]; lia]).
    destruct (IH rest (out ++ bs) (room - Z.of_nat (List.length bs)) HB') as (b2 & E & L2).
    - apply units_minus; [exact HU| |exact L]. destruct (enc_units e cp' bs EE) as (k & _ & K). exists k. exact K.
    - lia.
    - lia.
    - exists (bs ++ b2). rewrite (S1 bs _ A), E, <- app_assoc, app_length, Nat2Z.inj_add. split; [reflexivity|lia]. }
  destruct (append_nocheck e cp room S HU P) as [(bs & B & L & A)|[(B & B2 & A)|(B & bs & B2 & L & A)]].
  - exact (G cp bs B L A).
  - exists (zeros room). rewrite (S1 _ _ A), copy_full. cbn [bind finish]. split; [destruct rest; rewrite app_nil_r; reflexivity|exact ZL].
  - exact (G 63 bs B2 L A).
Qed.

(** ** Reading. *)
Lemma range_unit : forall e cp b X, encodes e cp b -> cp <> 0 -> get_string_range e (b ++ X) = b ++ get_string_range e X.
Proof.
  intros e cp b X H N. unfold get_string_range.
  destruct e; cbn [char_size encodes] in *.
  - destruct H as [cp H]. cbn [app range1]. destruct (Z.eqb_spec cp 0); [contradiction|reflexivity].
  - destruct H as [cp bs S L (lo & hi & B1 & B2 & E & ->)]. cbn [app range2]. rewrite <- E. destruct (Z.eqb_spec cp 0); [contradiction|reflexivity].
  - destruct H as [x H|a b H1 H2 H3|a b c H1 H2 H3 H4 H5|a b c d H1 H2 H3 H4 H5 H6]; cbn [app range1];
      repeat match goal with |- context [?x =? 0] => destruct (Z.eqb_spec x 0); [lia|] end; try reflexivity.
  - destruct H as [cp bs S L (lo & hi & B1 & B2 & E & ->)|h l b1 b2 Hh Hl (x & y & X1 & X2 & X3 & ->) (x2 & y2 & Y1 & Y2 & Y3 & ->)]; cbn [app range2].
    + rewrite <- E. destruct (Z.eqb_spec cp 0); [contradiction|reflexivity].
    + rewrite <- X3, <- Y3. destruct (Z.eqb_spec (0xD800 + h) 0); [lia|]. destruct (Z.eqb_spec (0xDC00 + l) 0); [lia|]. reflexivity.
  - destruct H as [cp bs S (x1 & x2 & x3 & x4 & B1 & B2 & B3 & B4 & E & ->)]. cbn [app range4]. rewrite <- E. destruct (Z.eqb_spec cp 0); [contradiction|reflexivity].
Qed.
Lemma range_text : forall e cps bs, text (encodes e) cps bs -> ~ In 0 cps -> forall X, get_string_range e (bs ++ X) = bs ++ get_string_range e X.
Proof.
  intros e cps bs H. induction H as [|cp b cps rest X H IH]; intros N Y; [reflexivity|].
  rewrite <- app_assoc, (range_unit e cp b _ X); [|intros ->; apply N; left; reflexivity]. rewrite IH, app_assoc; [reflexivity|intros I; apply N; right; exact I].
Qed.
Lemma range_end : forall e tl, ended true e tl -> get_string_range e tl = [].
Proof.
  intros e tl [-> |(_ & rest & ->)]; destruct e; reflexivity.
Qed.
Lemma holds_range : forall e cps buf, holds e cps buf -> exists bs, text (encodes e) cps bs /\ get_string_range e buf = bs.
Proof.
  intros e cps buf (N & bs & tl & T & -> & D). exists bs. split; [exact T|]. rewrite (range_text e cps bs T N).
  rewrite range_end; [apply app_nil_r|]. destruct D as [D|D]; [left; exact D|right; split; [reflexivity|exact D]].
Qed.
Lemma ascii_utf8 : forall cps bs, text (encodes Ascii) cps bs -> text utf8_of cps bs.
Proof.
  intros cps bs H. induction H as [|cp b cps rest X H IH]; [constructor|]. constructor; [|exact IH].
  destruct X as [cp X]. apply (utf8_1 cp). lia.
Qed.
Lemma holds_utf8 : forall e nc cps buf, holds e cps buf -> exists s, get_utf8_string e nc buf = Ok s /\ text utf8_of cps s.
Proof.
  intros e nc cps buf H. destruct (holds_range e cps buf H) as (bs & T & R). unfold get_utf8_string. rewrite R.
  destruct e.
  - exists bs. split; [reflexivity|apply ascii_utf8; exact T].
  - apply (as_utf8_complete Ucs2 nc cps bs); auto.
  - exists bs. split; [reflexivity|exact T].
  - apply (as_utf8_complete Utf16 nc cps bs); auto.
  - apply (as_utf8_complete Utf32 nc cps bs); auto.
Qed.
Lemma print_text : forall e cps pre, text (encodes e) cps pre -> ~ In 0 cps -> forall tl, ended true e tl -> forall fuel, (List.length (pre ++ tl) <= fuel)%nat ->
  print_loop (next_fn e true) fuel (pre ++ tl) = Ok cps.
Proof.
  intros e cps pre H. induction H as [|cp b cps rest X H IH]; intros N tl D fuel HF.
  - cbn [app] in *. destruct D as [-> |(_ & r & ->)]; [destruct fuel; reflexivity|].
    assert (E0 : encodes e 0 (repeat 0 (char_size e))) by (apply zero_unit; reflexivity). pose proof (encodes_nonempty e 0 _ E0) as NE.
    pose proof (next_complete e true 0 _ r E0) as NX.
    destruct (repeat 0 (char_size e) ++ r) as [|c q] eqn:Q; [destruct (repeat 0 (char_size e)); [congruence|discriminate]|].
    destruct fuel; [cbn in HF; lia|]. cbn [print_loop]. rewrite NX. reflexivity.
  - pose proof (encodes_nonempty e cp b X) as NE. pose proof (next_complete e true cp b (rest ++ tl) X) as NX. rewrite <- app_assoc in *.
    assert (LL : (List.length (rest ++ tl) < List.length (b ++ rest ++ tl))%nat) by (rewrite (app_length b); destruct b; [congruence|cbn; lia]).
    destruct (b ++ rest ++ tl) as [|c q] eqn:Q; [cbn in LL; lia|].
    destruct fuel; [cbn in HF; lia|]. cbn [print_loop]. rewrite NX. cbn [bind]. destruct (Z.eqb_spec cp 0) as [->|NZ]; [exfalso; apply N; left; reflexivity|].
    rewrite (IH (fun I => N (or_intror I)) tl D fuel); [reflexivity|lia].
Qed.
Lemma append_utf8_ok : forall nc cp cap, scalar cp -> 8 <= cap -> exists b, encodes Utf8 cp b /\ (List.length b <= 4)%nat /\ append_fn Utf8 nc cp cap = Ok (b, cap - Z.of_nat (List.length b)).
Proof.
  intros nc cp cap S L. destruct (C09_representable cp S) as ((b & B) & _). exists b. pose proof (enc_len4 cp b B). split; [exact B|]. split; [assumption|].
  apply append_complete; [exact B|lia].
Qed.
Lemma grow_text : forall e nc cps pre, text (encodes e) cps pre -> ~ In 0 cps -> forall tl, ended true e tl -> forall fuel out cap, (List.length (pre ++ tl) <= fuel)%nat ->
  17 <= cap -> Z.of_nat (List.length out) <= cap ->
  exists s, text utf8_of cps s /\ grow_loop (next_fn e nc) (append_fn Utf8 nc) fuel (pre ++ tl) out cap = Ok (out ++ s).
Proof.
  intros e nc cps pre H. induction H as [|cp b cps rest X H IH]; intros N tl D fuel out cap HF HC HO.
  - cbn [app] in *. exists []. split; [constructor|]. rewrite app_nil_r. destruct D as [-> |(_ & r & ->)]; [destruct fuel; reflexivity|].
    assert (E0 : encodes e 0 (repeat 0 (char_size e))) by (apply zero_unit; reflexivity). pose proof (encodes_nonempty e 0 _ E0) as NE.
    pose proof (next_complete e nc 0 _ r E0) as NX.
    destruct (repeat 0 (char_size e) ++ r) as [|c q] eqn:Q; [destruct (repeat 0 (char_size e)); [congruence|discriminate]|].
    destruct fuel; [cbn in HF; lia|]. cbn [grow_loop]. rewrite NX. reflexivity.
  - pose proof (encodes_nonempty e cp b X) as NE. pose proof (next_complete e nc cp b (rest ++ tl) X) as NX. rewrite <- app_assoc in *.
    assert (LL : (List.length (rest ++ tl) < List.length (b ++ rest ++ tl))%nat) by (rewrite (app_length b); destruct b; [congruence|cbn; lia]).
    destruct (b ++ rest ++ tl) as [|c q] eqn:Q; [cbn in LL; lia|].
    destruct fuel; [cbn in HF; lia|]. cbn [grow_loop]. rewrite NX. cbn [bind]. destruct (Z.eqb_spec cp 0) as [->|NZ]; [exfalso; apply N; left; reflexivity|].
    set (cap' := if 8 <=? cap - Z.of_nat (List.length out) then cap else 2 * cap).
    assert (C' : 17 <= cap' /\ 8 <= cap' - Z.of_nat (List.length out)) by (unfold cap'; destruct (Z.leb_spec 8 (cap - Z.of_nat (List.length out))); lia).
    destruct (append_utf8_ok nc cp (cap' - Z.of_nat (List.length out)) (encodes_scalar _ _ _ X) (proj2 C')) as (u & U & UL & A). rewrite A. cbn [bind].
    destruct (IH (fun I => N (or_intror I)) tl D fuel (out ++ u) cap') as (s & T & E); [lia|lia|rewrite app_length, Nat2Z.inj_add; lia|].
    exists (u ++ s). split; [constructor; assumption|]. rewrite E, app_assoc. reflexivity.
Qed.
Lemma grow_checked : forall e fuel src out cap, bytes src -> whole e src -> (List.length src <= fuel)%nat -> 17 <= cap -> Z.of_nat (List.length out) <= cap ->
  (exists cps, holds e cps src) \/ (exists x, grow_loop (next_fn e false) (append_fn Utf8 false) fuel src out cap = Throw x).
Proof.
  intros e. induction fuel as [|fuel IH]; intros src out cap HB HW HF HC HO.
  - destruct src; [|cbn in HF; lia]. left. exists []. split; [intros []|]. exists [], []. split; [constructor|]. split; [reflexivity|left; reflexivity].
  - destruct src as [|c q] eqn:Q; [left; exists []; split; [intros []|]; exists [], []; split; [constructor|]; split; [reflexivity|left; reflexivity]|]. rewrite <- Q in *.
    assert (NE : src <> []) by (rewrite Q; discriminate).
    destruct (next_strict_cases e src HB HW NE) as [(cp & b & rest & E & X & N)|(x & N)].
    2: { right. exists x. rewrite Q. cbn [grow_loop]. rewrite <- Q, N. reflexivity. }
    destruct (Z.eqb_spec cp 0) as [->|NZ].
    { left. exists []. split; [intros []|]. exists [], src. split; [constructor|]. split; [reflexivity|]. right. exists rest. rewrite E. f_equal. apply zero_unit. exact X. }
    set (cap' := if 8 <=? cap - Z.of_nat (List.length out) then cap else 2 * cap).
    assert (C' : 17 <= cap' /\ 8 <= cap' - Z.of_nat (List.length out)) by (unfold cap'; destruct (Z.leb_spec 8 (cap - Z.of_nat (List.length out))); lia).
    destruct (append_utf8_ok false cp (cap' - Z.of_nat (List.length out)) (encodes_scalar _ _ _ X) (proj2 C')) as (u & U & UL & A).
    pose proof (encodes_nonempty e cp b X) as NEb.
    assert (LL : (List.length rest < List.length src)%nat) by (rewrite E, app_length; destruct b; [congruence|cbn; lia]).
    destruct (IH rest (out ++ u) cap') as [(cps & N0 & bs & tl & T & E2 & D)|(x & T)].
    + rewrite E in HB. apply Forall_app in HB as [_ HB]. exact HB.
    + apply (whole_tail e b); [exact (encodes_whole _ _ _ X)|]. rewrite <- E. exact HW.
    + lia.
    + lia.
    + rewrite app_length, Nat2Z.inj_add. lia.
    + left. exists (cp :: cps). split; [intros [I|I]; [congruence|exact (N0 I)]|]. exists (b ++ bs), tl. split; [constructor; assumption|].
      split; [rewrite E, E2, app_assoc; reflexivity|exact D].
    + right. exists x. rewrite Q. cbn [grow_loop]. rewrite <- Q, N. cbn [bind]. destruct (Z.eqb_spec cp 0); [contradiction|]. fold cap'. rewrite A. cbn [bind]. exact T.
Qed.
Lemma cap_big : forall e (src : list Z), 17 <= (Z.of_nat (@List.length Z src) / Z.of_nat (char_size e) + 16) * 1124 / 1024.
Proof.
  intros e src. pose proof (char_size_pos e). pose proof (Z.div_pos (Z.of_nat (List.length src)) (Z.of_nat (char_size e)) ltac:(lia) ltac:(lia)).
  apply Z.div_le_lower_bound; lia.
Qed.
Lemma to_string_ok : forall e nc fuel cps buf, holds e cps buf -> (List.length buf <= fuel)%nat -> exists s, fixed_to_string e nc fuel buf = Ok s /\ text utf8_of cps s.
Proof.
  intros e nc fuel cps buf (N & bs & tl & T & -> & D) HF. unfold fixed_to_string.
  destruct (grow_text e nc cps bs T N tl ltac:(destruct D as [D|D]; [left; exact D|right; split; [reflexivity|exact D]]) fuel [] ((Z.of_nat (List.length (bs ++ tl)) / Z.of_nat (char_size e) + 16) * 1124 / 1024) HF (cap_big e (bs ++ tl)) ltac:(pose proof (cap_big e (bs ++ tl)); cbn [List.length]; lia)) as (s & S & E).
  exists s. split; [exact E|exact S].
Qed.
Lemma print_ok : forall e fuel cps buf, holds e cps buf -> (List.length buf <= fuel)%nat -> print_data e fuel buf = Ok cps.
Proof.
  intros e fuel cps buf (N & bs & tl & T & -> & D) HF. apply print_text; auto. destruct D as [D|D]; [left; exact D|right; split; [reflexivity|exact D]].
Qed.
Lemma repeat_units : forall m n, n <> 0%nat -> repeat 0 (n * S m) = repeat 0 n ++ repeat 0 (n * m).
Proof. intros m n H. rewrite <- repeat_app. f_equal. lia. Qed.
Lemma stores_holds : forall e size cps buf, units e size -> ~ In 0 cps -> stores e size cps buf -> holds e cps buf.
Proof.
  intros e size cps buf HU N (bs & T & L & ->). split; [exact N|]. exists bs, (repeat 0 (Z.to_nat (size - Z.of_nat (List.length bs)))). split; [exact T|]. split; [reflexivity|].
  assert (U : exists k, Z.of_nat (List.length bs) = k * Z.of_nat (char_size e)).
  { clear L N. induction T as [|cp b cps rest X T (k & IH)]; [exists 0; reflexivity|]. destruct (enc_units e cp b X) as (j & _ & J). exists (j + k). rewrite app_length, Nat2Z.inj_add, J, IH. ring. }
  destruct (units_minus e size _ HU U L) as (k & K & E). rewrite E. destruct (Z.eq_dec k 0) as [->|NK]; [left; reflexivity|right].
  exists (repeat 0 (Z.to_nat ((k - 1) * Z.of_nat (char_size e)))). rewrite <- repeat_app. f_equal. pose proof (char_size_pos e). nia.
Qed.

(** ** C150, C151: characters. *)
Lemma code_point_ok : forall e cp bs, encodes e cp bs -> char_encoding e = Ok e -> set_code_point e cp = Ok bs /\ get_code_point e bs = Ok cp.
Proof.
  intros e cp bs H E. assert (L : List.length bs = char_size e).
  { destruct e; try discriminate E; cbn [encodes] in H; destruct H; [reflexivity| |];
    match goal with W : word16 _ _ |- _ => destruct W as (x & y & _ & _ & _ & ->) | W : word32 _ _ |- _ => destruct W as (x & y & z & w & _ & _ & _ & _ & _ & ->) end; reflexivity. }
  unfold set_code_point, get_code_point. rewrite (append_complete e true cp bs _ H) by lia.
  pose proof (next_complete e true cp bs [] H) as NX. rewrite app_nil_r in NX. rewrite NX. split; reflexivity.
Qed.
Lemma code_point_not : forall e cp, 0 <= cp < 2 ^ 32 -> char_encoding e = Ok e -> (forall bs, ~ encodes e cp bs) ->
  exists bs, set_code_point e cp = Ok bs /\ get_code_point e bs = Ok 63.
Proof.
  intros e cp R E N. assert (G : e = Ascii \/ e = Ucs2 \/ e = Utf32) by (destruct e; auto; discriminate E).
  destruct G as [G|[G|G]].
  1, 2: destruct (append_substitutes e cp (Z.of_nat (char_size e)) ltac:(auto) R ltac:(lia) N) as (bs & A & B); exists bs; unfold set_code_point, get_code_point; rewrite A;
    pose proof (next_complete e true 63 bs [] B) as NX; rewrite app_nil_r in NX; rewrite NX; split; reflexivity.
  subst e. exists (bytes32 cp). split; [reflexivity|].
  assert (W : word32 cp (bytes32 cp)) by (apply bytes32_word; [lia|reflexivity]).
  assert (NS : ~ scalar cp) by (intros S; apply (N (bytes32 cp)); constructor; assumption).
  destruct W as (a & b & c & d & _ & _ & _ & _ & EV & ->). unfold get_code_point. cbn [next_fn negb]. unfold noerror_next_utf32. cbn [load32 bind]. rewrite <- EV.
  destruct (is_code_point_valid cp) eqn:V; [apply valid_iff in V; [contradiction|lia]|reflexivity].
Qed.
Lemma scalar_dec : forall cp, {scalar cp} + {~ scalar cp}.
Proof.
  intros cp. destruct (is_code_point_valid cp && (0 <=? cp))%bool eqn:E; [left|right].
  - apply andb_prop in E as [V L]. apply valid_iff; [lia|exact V].
  - intros S. assert (0 <= cp) by (destruct S; lia). apply valid_iff in S; [|assumption]. rewrite S in E. cbn in E. lia.
Qed.
Lemma classic_scalar : forall e cp, 0 <= cp < 2 ^ 32 -> (exists bs, encodes e cp bs) \/ (forall bs, ~ encodes e cp bs).
Proof.
  intros e cp R. destruct (scalar_dec cp) as [S|N]; [apply representable_dec; exact S|right; intros bs H; exact (N (encodes_scalar _ _ _ H))].
Qed.
