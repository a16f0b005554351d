From Verif Require Import Base ScanModel ScanSpec ScanProofs EncodingModel EncodingSpec EncodingProofs EscapeModel EscapeSpec.

(** Hexadecimal. *)
Lemma hex_is_iff d v : hex_is d v <-> hex_digit d = Some v.
Proof.
  unfold hex_digit. destruct (is_dig d) eqn:D; [|destruct (between 65 70 d) eqn:U; [|destruct (between 97 102 d) eqn:L]];
  unfold is_dig, between in *; (split; [intros X; inversion X; subst; try (exfalso; lia); auto|intros E; try discriminate; injection E as <-]).
  - apply hx_dig. lia.
  - apply hx_up. lia.
  - apply hx_low. lia.
Qed.
Lemma is_hex_some d : is_hex d = true -> exists v, hex_digit d = Some v.
Proof.
  unfold is_hex, hex_digit. destruct (is_dig d); eauto. destruct (between 65 70 d); eauto. destruct (between 97 102 d); eauto. discriminate.
Qed.
Lemma is_hex_none d : is_hex d = false -> hex_digit d = None.
Proof.
  unfold is_hex, hex_digit. destruct (is_dig d); [discriminate|]. destruct (between 65 70 d); [discriminate|]. destruct (between 97 102 d); [discriminate|]. auto.
Qed.
Lemma some_is_hex d v : hex_digit d = Some v -> is_hex d = true.
Proof. destruct (is_hex d) eqn:E; auto. apply is_hex_none in E. congruence. Qed.
Lemma hex_digit_range d v : hex_digit d = Some v -> 0 <= v < 16.
Proof.
  unfold hex_digit, is_dig, between. intros H.
  destruct ((48 <=? d) && (d <=? 57)) eqn:A; [injection H as <-; lia|].
  destruct ((65 <=? d) && (d <=? 70)) eqn:B; [injection H as <-; lia|].
  destruct ((97 <=? d) && (d <=? 102)) eqn:C; [injection H as <-; lia|discriminate].
Qed.

(** [hex_run a ds v]: continuing from the value [a], the digits [ds] give [v]. *)
Inductive hex_run : Z -> list Z -> Z -> Prop :=
| hr_nil a : hex_run a [] a
| hr_cons a d w ds v : hex_digit d = Some w -> hex_run (16 * a + w) ds v -> hex_run a (d :: ds) v.
Lemma hex_run_snoc a ds v d w : hex_run a ds v -> hex_digit d = Some w -> hex_run a (ds ++ [d]) (16 * v + w).
Proof. intros H E. induction H; cbn [app]; econstructor; eauto. constructor. Qed.
Lemma hex_num_run ds v : hex_num ds v -> hex_run 0 ds v.
Proof. induction 1; [constructor|]. apply hex_run_snoc; auto. now apply hex_is_iff. Qed.
Lemma run_hex_num a ds v : hex_run a ds v -> forall p, hex_num p a -> hex_num (p ++ ds) v.
Proof.
  induction 1; intros p Hp; [now rewrite app_nil_r|]. replace (p ++ d :: ds) with ((p ++ [d]) ++ ds) by now rewrite <- app_assoc.
  apply IHhex_run. constructor; auto. now apply hex_is_iff.
Qed.
Lemma hex_num_iff ds v : hex_num ds v <-> hex_run 0 ds v.
Proof. split; [apply hex_num_run|intros H; apply (run_hex_num 0 ds v H []); constructor]. Qed.
Lemma hex_run_bound a ds v : hex_run a ds v -> 0 <= a -> a * 16 ^ Z.of_nat (List.length ds) <= v < (a + 1) * 16 ^ Z.of_nat (List.length ds).
Proof.
  induction 1; intros P; [cbn; lia|]. pose proof (hex_digit_range _ _ H). specialize (IHhex_run ltac:(lia)).
  cbn [List.length]. rewrite Nat2Z.inj_succ, Z.pow_succ_r by lia.
  set (q := 16 ^ Z.of_nat (List.length ds)) in *. assert (0 < q) by (unfold q; apply Z.pow_pos_nonneg; lia). nia.
Qed.
Lemma hex_run_fun a ds v : hex_run a ds v -> forall v', hex_run a ds v' -> v = v'.
Proof. induction 1; intros v' H'; inversion H'; subst; auto. apply IHhex_run. congruence. Qed.

Lemma hex_scan_ok ds r : Forall (fun d => is_hex d = true) ds -> hex_scan (List.length ds) (ds ++ r) = Ok (ds, r).
Proof. induction 1 as [|d ds H F IH]; cbn [List.length hex_scan app deref bind tl]; auto. rewrite H. cbn [negb]. now rewrite IH. Qed.
Lemma hex_scan_inv n : forall it, (n <= List.length it)%nat ->
  (exists ds r, hex_scan n it = Ok (ds, r) /\ it = ds ++ r /\ List.length ds = n /\ Forall (fun d => is_hex d = true) ds) \/
  hex_scan n it = Throw "parse_error".
Proof.
  induction n as [|n IH]; intros it L; cbn [hex_scan].
  - left. exists [], it. auto.
  - destruct it as [|d it]; [cbn in L; lia|]. cbn [deref bind tl]. destruct (is_hex d) eqn:H; cbn [negb]; auto.
    destruct (IH it ltac:(cbn in L; lia)) as [(ds & r & E & -> & Ld & F)|E]; rewrite E; cbn [bind]; auto.
    left. exists (d :: ds), r. split; [auto|split; [auto|split; [cbn; lia|constructor; auto]]].
Qed.
Lemma all_hex_run ds : Forall (fun d => is_hex d = true) ds -> forall a, exists v, hex_run a ds v.
Proof.
  induction 1 as [|d ds H F IH]; intros a; [exists a; constructor|]. destruct (is_hex_some d H) as (w & E).
  destruct (IH (16 * a + w)) as (v & R). exists v. econstructor; eauto.
Qed.
Lemma run_all_hex a ds v : hex_run a ds v -> Forall (fun d => is_hex d = true) ds.
Proof. induction 1; constructor; auto. eapply some_is_hex; eauto. Qed.

Lemma accum_run n : forall ds a v r, hex_run a ds v -> List.length ds = n -> 0 <= a -> (a + 1) * 16 ^ Z.of_nat n <= 2 ^ 32 ->
  hex_accum n a (ds ++ r) = Ok (v, r) /\ ds_hex n a (ds ++ r) = Ok (v, r).
Proof.
  induction n as [|n IH]; intros ds a v r R L P B.
  - destruct ds; [|discriminate]. inversion R; subst. auto.
  - inversion R as [|? d w ds' ? Hd R']; subst; [discriminate|]. cbn [List.length] in L. injection L as L.
    pose proof (hex_digit_range _ _ Hd) as Hw. cbn [hex_accum ds_hex app deref bind tl]. rewrite Hd.
    rewrite Nat2Z.inj_succ, Z.pow_succ_r in B by lia.
    assert (Q : 1 <= 16 ^ Z.of_nat n) by (pose proof (Z.pow_pos_nonneg 16 (Z.of_nat n) ltac:(lia) ltac:(lia)); lia).
    assert (B' : (16 * a + w + 1) * 16 ^ Z.of_nat n <= 2 ^ 32) by nia.
    assert (A1 : 16 * a + w + 1 <= 2 ^ 32) by nia.
    assert (E : u32 (u32 (a * 16) + w) = 16 * a + w).
    { unfold u32, wrap. rewrite (Z.mod_small (a * 16)) by lia. rewrite Z.mod_small; lia. }
    rewrite E. apply IH; auto. lia.
Qed.
Lemma accum4 ds v r : List.length ds = 4%nat -> hex_num ds v -> hex_accum 4 0 (ds ++ r) = Ok (v, r) /\ ds_hex 4 0 (ds ++ r) = Ok (v, r).
Proof. intros L H. apply accum_run; auto; [now apply hex_num_iff|lia|cbn; lia]. Qed.
Lemma accum8 ds v r : List.length ds = 8%nat -> hex_num ds v -> hex_accum 8 0 (ds ++ r) = Ok (v, r).
Proof. intros L H. apply accum_run; auto; [now apply hex_num_iff|lia|cbn; lia]. Qed.

Lemma scalar_dec cp : scalar cp \/ ~ scalar cp.
Proof. unfold scalar. lia. Qed.
Lemma utf8_of_scalar cp bs : utf8_of cp bs -> scalar cp.
Proof. exact (encodes_scalar Utf8 cp bs). Qed.
Lemma append_ok cp bs out : utf8_of cp bs -> string_append_utf8 cp out = Ok (out ++ bs).
Proof.
  intros U. destruct (utf8_append_spec cp (utf8_of_scalar _ _ U)) as (bs' & E & U' & _). unfold string_append_utf8. rewrite E. cbn [bind].
  now rewrite (utf8_of_unique _ _ _ U U').
Qed.
Lemma append_bad cp out : 0 <= cp -> ~ scalar cp -> string_append_utf8 cp out = Throw "invalid_code_point".
Proof. intros P N. unfold string_append_utf8. now rewrite utf8_append_invalid. Qed.

(** Items. *)
Lemma simple_iff e : simple_escape e = true <-> exists v, In (e, v) escapes.
Proof.
  unfold simple_escape, escapes. split.
  - intros H. repeat (apply orb_true_iff in H; destruct H as [H|H]); apply Z.eqb_eq in H; subst e; eexists; cbn [In]; eauto 12.
  - intros (v & H). cbn [In] in H. repeat (destruct H as [H|H]); try contradiction; injection H as <- <-; reflexivity.
Qed.
Lemma escape_char_iff e v : escape_char e = Some v <-> In (e, v) escapes.
Proof.
  unfold escape_char, escapes. split.
  - intros H. destruct (_ || _) eqn:A.
    { repeat (apply orb_true_iff in A; destruct A as [A|A]); apply Z.eqb_eq in A; subst e; injection H as <-; cbn [In]; auto 9. }
    destruct (Z.eqb_spec e 98); [subst; injection H as <-; cbn [In]; auto 12|].
    destruct (Z.eqb_spec e 102); [subst; injection H as <-; cbn [In]; auto 12|].
    destruct (Z.eqb_spec e 110); [subst; injection H as <-; cbn [In]; auto 12|].
    destruct (Z.eqb_spec e 114); [subst; injection H as <-; cbn [In]; auto 12|].
    destruct (Z.eqb_spec e 116); [subst; injection H as <-; cbn [In]; auto 12|discriminate].
  - intros H. cbn [In] in H. repeat (destruct H as [H|H]); try contradiction; injection H as <- <-; reflexivity.
Qed.
Lemma uU_not_simple : simple_escape 117 = false /\ simple_escape 85 = false /\ escape_char 117 = None /\ escape_char 85 = None.
Proof. split; [reflexivity|split; [reflexivity|split; reflexivity]]. Qed.

Lemma u_item (k : Z) ds : (k = 117 /\ List.length ds = 4%nat) \/ (k = 85 /\ List.length ds = 8%nat) ->
  Forall (fun d => is_hex d = true) ds -> exists v, dq_item (92 :: k :: ds) v.
Proof.
  intros K F. destruct (all_hex_run ds F 0) as (cp & R). apply hex_num_iff in R.
  destruct (scalar_dec cp) as [S|N].
  - destruct (utf8_append_spec cp S) as (bs & _ & U & _). exists (Some bs). destruct K as [[-> L]|[-> L]]; econstructor; eauto.
  - exists None. destruct K as [[-> L]|[-> L]]; econstructor; eauto.
Qed.

Lemma len_app_lt ds (r : list Z) n : List.length ds = n -> (len (ds ++ r) <? Z.of_nat n) = false.
Proof. intros L. unfold len. rewrite app_length. lia. Qed.
Lemma len_ge (it : list Z) n : (len it <? Z.of_nat n) = false -> (n <= List.length it)%nat.
Proof. unfold len. lia. Qed.

Lemma hex_num_all ds v : hex_num ds v -> Forall (fun d => is_hex d = true) ds.
Proof. intros H. eapply run_all_hex. apply hex_num_iff; eauto. Qed.

Definition has_bs (s : list Z) : bool := existsb (Z.eqb 92) s.
Lemma has_bs_iff s : has_bs s = true <-> In 92 s.
Proof. unfold has_bs. rewrite existsb_exists. split; [intros (x & I & E); apply Z.eqb_eq in E; congruence|intros I; exists 92; auto]. Qed.
Lemma has_bs_app a b : has_bs (a ++ b) = has_bs a || has_bs b.
Proof. apply existsb_app. Qed.

Lemma item_step i v fuel esc acc t : dq_item i v ->
  dq_loop (S fuel) esc acc (i ++ t) = dq_loop fuel (esc || has_bs i) (rev i ++ acc) t.
Proof.
  assert (U : forall ds, List.length ds = 4%nat -> Forall (fun d => is_hex d = true) ds ->
     dq_loop (S fuel) esc acc ((92 :: 117 :: ds) ++ t) = dq_loop fuel (esc || has_bs (92 :: 117 :: ds)) (rev (92 :: 117 :: ds) ++ acc) t).
  { intros ds L F. cbn [dq_loop app at_end deref bind tl]. change (92 =? 92) with true. cbv iota.
    change (simple_escape 117) with false. cbv iota. change (117 =? 117) with true. cbv iota.
    rewrite (len_app_lt ds t 4 L : (len (ds ++ t) <? 4) = false). rewrite <- L, hex_scan_ok by auto. cbn [bind].
    f_equal; [now rewrite orb_true_r|]. cbn [rev]. now rewrite <- !app_assoc. }
  assert (UU : forall ds, List.length ds = 8%nat -> Forall (fun d => is_hex d = true) ds ->
     dq_loop (S fuel) esc acc ((92 :: 85 :: ds) ++ t) = dq_loop fuel (esc || has_bs (92 :: 85 :: ds)) (rev (92 :: 85 :: ds) ++ acc) t).
  { intros ds L F. cbn [dq_loop app at_end deref bind tl]. change (92 =? 92) with true. cbv iota.
    change (simple_escape 85) with false. cbv iota. change (85 =? 117) with false. change (85 =? 85) with true. cbv iota.
    rewrite (len_app_lt ds t 8 L : (len (ds ++ t) <? 8) = false). rewrite <- L, hex_scan_ok by auto. cbn [bind].
    f_equal; [now rewrite orb_true_r|]. cbn [rev]. now rewrite <- !app_assoc. }
  intros H. destruct H as [c N1 N2|e v I|ds cp bs L R _|ds cp bs L R _|ds cp L R _|ds cp L R _];
    [| |apply U|apply UU|apply U|apply UU]; eauto using hex_num_all.
  - cbn [dq_loop app at_end deref bind tl rev]. destruct (Z.eqb_spec c 92); [congruence|]. destruct (Z.eqb_spec c 34); [congruence|].
    unfold has_bs. cbn [existsb]. destruct (Z.eqb_spec 92 c); [congruence|]. now rewrite !orb_false_r.
  - cbn [dq_loop app at_end deref bind tl rev]. change (92 =? 92) with true. cbv iota.
    assert (S : simple_escape e = true) by (apply simple_iff; eauto). rewrite S. unfold has_bs. cbn [existsb]. change (92 =? 92) with true. cbn [orb]. now rewrite orb_true_r.
Qed.
Lemma item_nonempty i v : dq_item i v -> i <> [].
Proof. intros []; discriminate. Qed.

Lemma dq_complete body : dq_body body -> forall fuel esc acc rest, (List.length body < fuel)%nat ->
  dq_loop fuel esc acc (body ++ 34 :: rest) = Ok (rev acc ++ body, esc || has_bs body, rest).
Proof.
  induction 1 as [|i v t Hi Ht IH]; intros fuel esc acc rest L.
  - destruct fuel as [|fuel]; [cbn in L; lia|]. cbn [dq_loop app at_end deref bind tl]. change (34 =? 92) with false. change (34 =? 34) with true. cbv iota.
    now rewrite app_nil_r, orb_false_r.
  - pose proof (item_nonempty _ _ Hi). rewrite app_length in L. destruct i as [|x i]; [congruence|]. destruct fuel as [|fuel]; [lia|].
    rewrite <- app_assoc, (item_step (x :: i) v) by auto. rewrite IH by (cbn in L; lia).
    rewrite rev_app_distr, rev_involutive, has_bs_app, orb_assoc, <- app_assoc. reflexivity.
Qed.

Lemma dq_sound fuel : forall esc acc it, (List.length it < fuel)%nat ->
  (exists body rest, it = body ++ 34 :: rest /\ dq_body body) \/ dq_loop fuel esc acc it = Throw "parse_error".
Proof.
  induction fuel as [|fuel IH]; intros esc acc it L; [lia|].
  assert (ST : forall i v t, it = i ++ t -> dq_item i v -> 
     (exists body rest, it = body ++ 34 :: rest /\ dq_body body) \/ dq_loop (S fuel) esc acc it = Throw "parse_error").
  { intros i v t E Hi. pose proof (item_nonempty _ _ Hi). rewrite E. rewrite (item_step i v) by auto.
    assert (Lt : (List.length t < fuel)%nat) by (rewrite E, app_length in L; destruct i; [congruence|cbn in L; lia]).
    destruct (IH (esc || has_bs i) (rev i ++ acc) t Lt) as [(body & rest & -> & B)|T]; [left|right; exact T].
    exists (i ++ body), rest. split; [now rewrite <- app_assoc|econstructor; eauto]. }
  destruct it as [|c it]; [right; reflexivity|].
  destruct (Z.eqb_spec c 92) as [->|N].
  - destruct it as [|e it]; [right; reflexivity|]. destruct (simple_escape e) eqn:S.
    { apply simple_iff in S as (v & I). apply (ST [92; e] (Some [v]) it); auto. now constructor. }
    destruct (Z.eqb_spec e 117) as [->|N1].
    { cbn [dq_loop at_end deref bind tl]. change (92 =? 92) with true. cbv iota. rewrite S. change (117 =? 117) with true. cbv iota.
      destruct (len it <? 4) eqn:Ln; [auto|]. apply (len_ge it 4) in Ln. destruct (hex_scan_inv 4 it Ln) as [(ds & r & E & -> & Ld & F)|E].
      - destruct (u_item 117 ds (or_introl (conj eq_refl Ld)) F) as (v & I).
        destruct (ST (92 :: 117 :: ds) v r eq_refl I) as [X|X]; auto. right. cbn [dq_loop at_end deref bind tl] in X. change (92 =? 92) with true in X. cbv iota in X.
        rewrite S in X. change (117 =? 117) with true in X. cbv iota in X. cbn [app] in X. rewrite (len_app_lt ds r 4 Ld : (len (ds ++ r) <? 4) = false) in X. exact X.
      - right. rewrite E. reflexivity. }
    destruct (Z.eqb_spec e 85) as [->|N2].
    { cbn [dq_loop at_end deref bind tl]. change (92 =? 92) with true. cbv iota. rewrite S. change (85 =? 117) with false. change (85 =? 85) with true. cbv iota.
      destruct (len it <? 8) eqn:Ln; [auto|]. apply (len_ge it 8) in Ln. destruct (hex_scan_inv 8 it Ln) as [(ds & r & E & -> & Ld & F)|E].
      - destruct (u_item 85 ds (or_intror (conj eq_refl Ld)) F) as (v & I).
        destruct (ST (92 :: 85 :: ds) v r eq_refl I) as [X|X]; auto. right. cbn [dq_loop at_end deref bind tl] in X. change (92 =? 92) with true in X. cbv iota in X.
        rewrite S in X. change (85 =? 117) with false in X. change (85 =? 85) with true in X. cbv iota in X. cbn [app] in X. rewrite (len_app_lt ds r 8 Ld : (len (ds ++ r) <? 8) = false) in X. exact X.
      - right. rewrite E. reflexivity. }
    right. cbn [dq_loop at_end deref bind tl]. change (92 =? 92) with true. cbv iota. rewrite S.
    destruct (Z.eqb_spec e 117); [congruence|]. destruct (Z.eqb_spec e 85); [congruence|]. reflexivity.
  - destruct (Z.eqb_spec c 34) as [->|N1].
    + left. exists [], it. split; [reflexivity|constructor].
    + apply (ST [c] (Some [c]) it); auto. now constructor.
Qed.

Lemma dq_iff s body esc rest : parse_doublequote_string_no_ws s = Ok (Some (body, esc, rest)) <->
  s = 34 :: body ++ 34 :: rest /\ dq_body body /\ (esc = true <-> In 92 body).
Proof.
  assert (C : forall body rest, dq_body body -> parse_doublequote_string_no_ws (34 :: body ++ 34 :: rest) = Ok (Some (body, has_bs body, rest))).
  { intros b r B. unfold parse_doublequote_string_no_ws.
    rewrite (proj2 (token_no_ws_iff (34 :: b ++ 34 :: r) [34] (b ++ 34 :: r)) eq_refl).
    rewrite dq_complete; auto. rewrite app_length; cbn; lia. }
  split.
  - intros H. assert (H' := H). unfold parse_doublequote_string_no_ws in H'.
    destruct (parse_token_no_ws s [34]) as [it1|] eqn:T; [|discriminate]. apply token_no_ws_iff in T. cbn [app] in T. subst s.
    destruct (dq_sound (S (List.length it1)) false [] it1 (Nat.lt_succ_diag_r _)) as [(b & r & -> & B)|E].
    + rewrite C in H by auto. injection H as <- <- <-. split; [auto|split; [auto|apply has_bs_iff]].
    + rewrite E in H'. discriminate.
  - intros (-> & B & E). rewrite C by auto. f_equal. f_equal. f_equal. f_equal. pose proof (has_bs_iff body). destruct (has_bs body), esc; intuition congruence.
Qed.
Lemma dq_none s : parse_doublequote_string_no_ws s = Ok None <-> ~ next_is (eq 34) s.
Proof.
  unfold parse_doublequote_string_no_ws. split.
  - intros H (c & r & -> & <-). rewrite (proj2 (token_no_ws_iff (34 :: r) [34] r) eq_refl) in H.
    destruct (dq_loop _ _ _ r); discriminate.
  - intros N. destruct (parse_token_no_ws s [34]) as [it1|] eqn:T; auto. apply token_no_ws_iff in T. subst s. exfalso. apply N. cbn [app]. now rewrite next_cons.
Qed.
Lemma dq_throws s : next_is (eq 34) s -> (~ exists body rest, s = 34 :: body ++ 34 :: rest /\ dq_body body) ->
  parse_doublequote_string_no_ws s = Throw "parse_error".
Proof.
  intros (c & r & -> & <-) N. unfold parse_doublequote_string_no_ws. rewrite (proj2 (token_no_ws_iff (34 :: r) [34] r) eq_refl).
  destruct (dq_sound (S (List.length r)) false [] r (Nat.lt_succ_diag_r _)) as [(b & r' & -> & B)|E]; [exfalso; eauto|]. rewrite E. reflexivity.
Qed.

(** Unescaping. *)
Lemma unescape_item i v fuel t out : dq_item i v ->
  unescape_loop (S fuel) (i ++ t) out = match v with Some w => unescape_loop fuel t (out ++ w) | None => Throw "invalid_code_point" end.
Proof.
  intros H. destruct H as [c N1 N2|e v I|ds cp bs L R U|ds cp bs L R U|ds cp L R U|ds cp L R U].
  - cbn [unescape_loop app at_end deref bind tl]. destruct (Z.eqb_spec c 92); [congruence|]. reflexivity.
  - cbn [unescape_loop app at_end deref bind tl]. change (92 =? 92) with true. cbv iota. apply escape_char_iff in I. now rewrite I.
  - cbn [unescape_loop app at_end deref bind tl]. change (92 =? 92) with true. cbv iota. change (escape_char 117) with (@None Z). cbv iota. change (117 =? 117) with true. cbv iota.
    rewrite (len_app_lt ds t 4 L : (len (ds ++ t) <? 4) = false). rewrite (proj1 (accum4 ds cp t L R)). cbn [bind]. now rewrite (append_ok cp bs).
  - cbn [unescape_loop app at_end deref bind tl]. change (92 =? 92) with true. cbv iota. change (escape_char 85) with (@None Z). cbv iota. change (85 =? 117) with false. change (85 =? 85) with true. cbv iota.
    rewrite (len_app_lt ds t 8 L : (len (ds ++ t) <? 8) = false). rewrite (accum8 ds cp t L R). cbn [bind]. now rewrite (append_ok cp bs).
  - cbn [unescape_loop app at_end deref bind tl]. change (92 =? 92) with true. cbv iota. change (escape_char 117) with (@None Z). cbv iota. change (117 =? 117) with true. cbv iota.
    rewrite (len_app_lt ds t 4 L : (len (ds ++ t) <? 4) = false). rewrite (proj1 (accum4 ds cp t L R)). cbn [bind]. rewrite (append_bad cp); auto.
    apply hex_num_iff, hex_run_bound in R; lia.
  - cbn [unescape_loop app at_end deref bind tl]. change (92 =? 92) with true. cbv iota. change (escape_char 85) with (@None Z). cbv iota. change (85 =? 117) with false. change (85 =? 85) with true. cbv iota.
    rewrite (len_app_lt ds t 8 L : (len (ds ++ t) <? 8) = false). rewrite (accum8 ds cp t L R). cbn [bind]. rewrite (append_bad cp); auto.
    apply hex_num_iff, hex_run_bound in R; lia.
Qed.
Lemma unescape_body body : dq_body body -> forall fuel out, (List.length body < fuel)%nat ->
  (exists w, dq_denotes body w /\ unescape_loop fuel body out = Ok (out ++ w)) \/
  ((exists pre i post, body = pre ++ i ++ post /\ dq_body pre /\ dq_item i None /\ dq_body post) /\
   unescape_loop fuel body out = Throw "invalid_code_point").
Proof.
  induction 1 as [|i v t Hi Ht IH]; intros fuel out L.
  - left. exists []. split; [constructor|]. rewrite app_nil_r. destruct fuel; [cbn in L; lia|reflexivity].
  - pose proof (item_nonempty _ _ Hi). rewrite app_length in L. destruct fuel as [|fuel]; [lia|].
    rewrite (unescape_item i v) by auto. destruct v as [w|].
    + destruct (IH fuel (out ++ w)) as [(w' & D & E)|((pre & j & post & E & B1 & J & B2) & T)]; [destruct i; [congruence|cbn in L; lia]| |].
      * left. exists (w ++ w'). split; [econstructor; eauto|]. now rewrite E, <- app_assoc.
      * right. split; [|exact T]. exists (i ++ pre), j, post. split; [now rewrite E, <- app_assoc|split; [econstructor; eauto|auto]].
    + right. split; auto. exists [], i, t. split; [auto|split; [constructor|auto]].
Qed.
Lemma denotes_body b w : dq_denotes b w -> dq_body b.
Proof. induction 1; econstructor; eauto. Qed.
Lemma unescape_denotes body w : dq_denotes body w -> unescape_string body = Ok w.
Proof.
  intros D. unfold unescape_string.
  assert (G : forall fuel out, (List.length body < fuel)%nat -> unescape_loop fuel body out = Ok (out ++ w)); [|exact (G (S (List.length body)) [] (Nat.lt_succ_diag_r _))].
  induction D as [|i v t w Hi Ht IH]; intros fuel out L.
  - destruct fuel; [cbn in L; lia|]. now rewrite app_nil_r.
  - pose proof (item_nonempty _ _ Hi). rewrite app_length in L. destruct fuel as [|fuel]; [lia|]. rewrite (unescape_item i (Some v)) by auto.
    rewrite IH by (destruct i; [congruence|cbn in L; lia]). now rewrite <- app_assoc.
Qed.
Lemma unescape_dichotomy body : dq_body body ->
  (exists w, dq_denotes body w /\ unescape_string body = Ok w) \/
  ((exists pre i post, body = pre ++ i ++ post /\ dq_body pre /\ dq_item i None /\ dq_body post) /\ unescape_string body = Throw "invalid_code_point").
Proof. intros B. exact (unescape_body body B (S (List.length body)) [] (Nat.lt_succ_diag_r _)). Qed.

(** On any text at all [unescape_string] stays in the buffer. *)
Definition okthrow {A} (x : outcome A) : Prop := match x with Ok _ | Throw _ => True | _ => False end.
Lemma accum_total n : forall it c, (n <= List.length it)%nat -> exists v, hex_accum n c it = Ok (v, skipn n it).
Proof.
  induction n as [|n IH]; intros it c L; [eexists; reflexivity|].
  destruct it as [|d it]; [cbn in L; lia|]. cbn [hex_accum deref bind tl skipn]. apply IH. cbn in L; lia.
Qed.
Lemma unescape_safe s : okthrow (unescape_string s).
Proof.
  unfold unescape_string. assert (G : forall fuel it out, (List.length it < fuel)%nat -> okthrow (unescape_loop fuel it out)).
  { induction fuel as [|fuel IH]; intros it out L; [lia|]. cbn [unescape_loop]. destruct it as [|c it]; cbn [at_end]; [exact I|]. cbn [deref bind tl]. cbn [List.length] in L.
    destruct (c =? 92); [|apply IH; lia]. destruct it as [|e it]; cbn [at_end]; [exact I|]. cbn [deref bind tl]. cbn [List.length] in L.
    destruct (escape_char e); [apply IH; lia|].
    assert (UU : forall n cp it3, hex_accum n 0 it = Ok (cp, it3) -> it3 = skipn n it -> okthrow (do out' <- string_append_utf8 cp out; unescape_loop fuel it3 out')).
    { intros n cp it3 _ ->. unfold string_append_utf8. assert (U : okthrow (utf8_append cp)).
      { unfold utf8_append. repeat (destruct (negb _) || destruct (_ <? _)); exact I. }
      destruct (utf8_append cp); try contradiction; cbn [bind]; [|exact I]. apply IH. rewrite skipn_length. lia. }
    destruct (e =? 117).
    - destruct (len it <? 4) eqn:Ln; [exact I|]. apply (len_ge it 4) in Ln. destruct (accum_total 4 it 0 Ln) as (v & E).
      rewrite E. cbn [bind]. eapply UU; eauto.
    - destruct (e =? 85).
      + destruct (len it <? 8) eqn:Ln; [exact I|]. apply (len_ge it 8) in Ln. destruct (accum_total 8 it 0 Ln) as (v & E).
        rewrite E. cbn [bind]. eapply UU; eauto.
      + apply IH. lia. }
  apply G. lia.
Qed.

(** Printing. *)
Lemma hex_char_digit v : 0 <= v < 16 -> hex_digit (hex_char v) = Some v.
Proof.
  intros H. unfold hex_char, hex_digit, is_dig, between. destruct (Z.ltb_spec v 10).
  - replace (_ && _) with true by lia. f_equal. lia.
  - replace ((48 <=? _) && _) with false by lia. replace ((65 <=? _) && _) with false by lia. replace ((97 <=? _) && _) with true by lia. f_equal. lia.
Qed.
Lemma hex_byte_run a v : 0 <= v < 256 -> hex_run a (hex_byte v) (256 * a + v).
Proof.
  intros H. unfold hex_byte, u8, wrap. rewrite (Z.mod_small v) by lia.
  rewrite Z.shiftr_div_pow2 by lia. change 15 with (Z.ones 4). rewrite Z.land_ones by lia. change (2 ^ 4) with 16.
  pose proof (Z.div_mod v 16 ltac:(lia)). pose proof (Z.mod_pos_bound v 16 ltac:(lia)).
  econstructor; [apply hex_char_digit; lia|]. econstructor; [apply hex_char_digit; lia|].
  replace (256 * a + v) with (16 * (16 * a + v / 16) + v mod 16) by lia. constructor.
Qed.
Lemma hex_run_app a ds v es w : hex_run a ds v -> hex_run v es w -> hex_run a (ds ++ es) w.
Proof. induction 1; intros; cbn [app]; auto. econstructor; eauto. Qed.
Lemma land_ff_mod x : 0 <= x -> Z.land x 0xff = x mod 256.
Proof. intros. change 0xff with (Z.ones 8). now rewrite Z.land_ones by lia. Qed.
Lemma print16 v : 0 <= v < 65536 -> List.length (hexadecimal_print16 v) = 4%nat /\ hex_num (hexadecimal_print16 v) v.
Proof.
  intros H. split; [reflexivity|]. apply hex_num_iff. unfold hexadecimal_print16.
  rewrite Z.shiftr_div_pow2 by lia. change (2 ^ 8) with 256. rewrite !land_ff_mod by lia.
  pose proof (Z.div_mod v 256 ltac:(lia)). pose proof (Z.mod_pos_bound v 256 ltac:(lia)).
  rewrite (Z.mod_small (v / 256)) by lia.
  eapply hex_run_app; [apply hex_byte_run; lia|]. pose proof (hex_byte_run (256 * 0 + v / 256) (v mod 256) ltac:(lia)) as R. replace (256 * (256 * 0 + v / 256) + v mod 256) with v in R by lia. exact R.
Qed.
Lemma print32 v : 0 <= v < 2 ^ 32 -> List.length (hexadecimal_print32 v) = 8%nat /\ hex_num (hexadecimal_print32 v) v.
Proof.
  intros H. split; [reflexivity|]. apply hex_num_iff. unfold hexadecimal_print32.
  rewrite !Z.shiftr_div_pow2 by lia. change (2 ^ 8) with 256. change (2 ^ 16) with 65536. change (2 ^ 24) with 16777216. rewrite !land_ff_mod by lia.
  assert (V : v = 256 * (256 * (256 * (256 * 0 + v / 16777216) + (v / 65536) mod 256) + (v / 256) mod 256) + v mod 256).
  { pose proof (Z.div_mod v 256 ltac:(lia)) as D1. pose proof (Z.div_mod (v / 256) 256 ltac:(lia)) as D2. pose proof (Z.div_mod (v / 65536) 256 ltac:(lia)) as D3.
    rewrite Z.div_div in D2 by lia. rewrite Z.div_div in D3 by lia. change (256 * 256) with 65536 in D2. change (65536 * 256) with 16777216 in D3. lia. }
  assert (R := hex_byte_run (256 * (256 * (256 * 0 + v / 16777216) + (v / 65536) mod 256) + (v / 256) mod 256) (v mod 256) ltac:(apply Z.mod_pos_bound; lia)).
  rewrite <- V in R.
  eapply hex_run_app; [apply hex_byte_run; lia|]. eapply hex_run_app; [apply hex_byte_run; apply Z.mod_pos_bound; lia|].
  eapply hex_run_app; [apply hex_byte_run; apply Z.mod_pos_bound; lia|]. exact R.
Qed.

Lemma escapes_in e v : escape_char e = Some v -> dq_item [92; e] (Some [v]).
Proof. intros H. constructor. now apply escape_char_iff. Qed.
Lemma utf8_ascii cp bs : utf8_of cp bs -> cp < 128 -> bs = [cp].
Proof. intros H. destruct H; intros; auto; lia. Qed.
Lemma print_item cp bs : utf8_of cp bs -> dq_item (print_escaped_unicode_codepoint cp false) (Some bs).
Proof.
  intros U. pose proof (utf8_of_scalar _ _ U) as [S1 S2]. unfold print_escaped_unicode_codepoint.
  destruct (Z.ltb_spec cp 128) as [A|A].
  - pose proof (utf8_ascii _ _ U A) as ->.
    destruct (Z.eqb_spec cp 8); [subst; now apply escapes_in|].
    destruct (Z.eqb_spec cp 12); [subst; now apply escapes_in|].
    destruct (Z.eqb_spec cp 10); [subst; now apply escapes_in|].
    destruct (Z.eqb_spec cp 13); [subst; now apply escapes_in|].
    destruct (Z.eqb_spec cp 9); [subst; now apply escapes_in|].
    destruct (Z.eqb_spec cp 92); [subst; now apply escapes_in|].
    destruct (Z.eqb_spec cp 39); [subst; constructor; lia|].
    destruct (Z.eqb_spec cp 34); [subst; now apply escapes_in|].
    destruct (_ || _).
    + destruct (print16 (u16 cp)) as [L H]; [unfold u16, wrap; apply Z.mod_pos_bound; lia|].
      unfold u16, wrap in *. rewrite Z.mod_small in * by lia. eapply it_u; eauto.
    + constructor; auto.
  - destruct (Z.ltb_spec cp 65536).
    + destruct (print16 (u16 cp)) as [L H']; [unfold u16, wrap; apply Z.mod_pos_bound; lia|].
      unfold u16, wrap in *. rewrite Z.mod_small in * by lia. eapply it_u; eauto.
    + destruct (print32 (u32 cp)) as [L H']; [unfold u32, wrap; apply Z.mod_pos_bound; lia|].
      unfold u32, wrap in *. rewrite Z.mod_small in * by lia. eapply it_U; eauto.
Qed.

Lemma utf8_nonempty cp bs : utf8_of cp bs -> bs <> [].
Proof. intros []; discriminate. Qed.
Definition printed (q : bool) (cps : list Z) : list Z := flat_map (fun cp => print_escaped_unicode_codepoint cp q) cps.
Lemma print_loop q cps s : text utf8_of cps s -> forall fuel o, (List.length s < fuel)%nat ->
  print_escaped_loop fuel s q o = Ok (o ++ printed q cps).
Proof.
  induction 1 as [|cp bs cps rest U T IH]; intros fuel o L.
  - destruct fuel; [cbn in L; lia|]. cbn [printed flat_map]. now rewrite app_nil_r.
  - pose proof (utf8_nonempty _ _ U). rewrite app_length in L. destruct fuel as [|fuel]; [lia|]. destruct bs as [|b bs]; [congruence|].
    cbn [print_escaped_loop]. replace (at_end ((b :: bs) ++ rest)) with false by reflexivity. cbv iota.
    pose proof (next_complete Utf8 false cp (b :: bs) rest U) as E. cbn [next_fn negb] in E. rewrite E. cbn [bind].
    rewrite IH by (cbn in L; lia). cbn [printed flat_map]. now rewrite <- app_assoc.
Qed.
Lemma printed_denotes cps s : text utf8_of cps s -> dq_denotes (printed false cps) s.
Proof. induction 1; cbn [printed flat_map]; econstructor; eauto using print_item. Qed.

Lemma no_escape_denotes b w : dq_denotes b w -> ~ In 92 b -> w = b.
Proof.
  induction 1 as [|i v t w Hi Ht IH]; intros N; auto. rewrite IH by (intros I; apply N; apply in_or_app; auto). f_equal.
  assert (Ni : ~ In 92 i) by (intros I; apply N; apply in_or_app; auto). clear -Hi Ni.
  inversion Hi; subst; auto; exfalso; apply Ni; cbn; auto.
Qed.

Lemma round_trip cps s rest : text utf8_of cps s -> exists body esc,
  print_escaped_utf8_string s false = Ok (34 :: body ++ [34]) /\
  parse_doublequote_string_no_ws ((34 :: body ++ [34]) ++ rest) = Ok (Some (body, esc, rest)) /\
  unescape_string body = Ok s /\ (esc = false -> body = s).
Proof.
  intros T. exists (printed false cps), (has_bs (printed false cps)). pose proof (printed_denotes _ _ T) as D.
  split; [|split; [|split]].
  - unfold print_escaped_utf8_string. rewrite (print_loop false cps s T) by lia. reflexivity.
  - apply dq_iff. split; [cbn [app]; now rewrite <- app_assoc|split; [eapply denotes_body; eauto|apply has_bs_iff]].
  - now apply unescape_denotes.
  - intros E. symmetry. apply no_escape_denotes; auto. rewrite <- has_bs_iff. congruence.
Qed.

Lemma print_rejects q s : bytes s -> (forall cps, ~ text utf8_of cps s) -> exists e, print_escaped_utf8_string s q = Throw e.
Proof.
  intros B N. unfold print_escaped_utf8_string.
  assert (G : forall fuel it o, bytes it -> (List.length it < fuel)%nat -> (exists cps, text utf8_of cps it) \/ exists e, print_escaped_loop fuel it q o = Throw e).
  { induction fuel as [|fuel IH]; intros it o Bi L; [lia|]. destruct it as [|b it]; [left; exists []; constructor|].
    cbn [print_escaped_loop at_end].
    destruct (next_utf8_cases (b :: it) Bi ltac:(discriminate)) as [(cp & bs & rest & E & U & Nx & _)|(_ & (e & Nx) & _)]; rewrite Nx; cbn [bind]; [|right; eauto].
    rewrite E in *. apply Forall_app in Bi as [_ Br]. rewrite app_length in L. pose proof (utf8_nonempty _ _ U).
    destruct (IH rest (o ++ print_escaped_unicode_codepoint cp q) Br) as [(cps & T)|X]; [destruct bs; [congruence|cbn in L; lia]| |]; auto.
    left. exists (cp :: cps). now constructor. }
  destruct (G (S (List.length s)) s [if q then 39 else 34] B ltac:(lia)) as [(cps & T)|(e & X)]; [destruct (N cps T)|]. exists e. rewrite X. reflexivity.
Qed.

(** Datashape literals. *)
Lemma quote_escape_iff e v : (if e =? 39 then Some 39 else escape_char e) = Some v <-> In (e, v) ((39, 39) :: escapes).
Proof.
  cbn [In]. destruct (Z.eqb_spec e 39) as [->|N].
  - split; [intros [= <-]; auto|intros [[= <-]|I]; auto]. apply escape_char_iff in I. discriminate.
  - rewrite escape_char_iff. split; auto. intros [[= <- <-]|I]; auto. congruence.
Qed.
Lemma ds_item_step q i v fuel t out : ds_item q i v -> q <> 92 ->
  ds_quoted_loop (S fuel) q (i ++ t) out = ds_quoted_loop fuel q t (out ++ v).
Proof.
  intros H Q. destruct H as [c N1 N2|e v I|ds cp bs L R U].
  - cbn [ds_quoted_loop app at_end deref bind tl]. destruct (Z.eqb_spec c 92); [congruence|]. destruct (Z.eqb_spec c q); [congruence|]. reflexivity.
  - cbn [ds_quoted_loop app at_end deref bind tl]. change (92 =? 92) with true. cbv iota. apply quote_escape_iff in I.
    destruct (e =? 39); [injection I as <-; auto|]. now rewrite I.
  - cbn [ds_quoted_loop app at_end deref bind tl]. change (92 =? 92) with true. cbv iota. change (117 =? 39) with false. change (escape_char 117) with (@None Z). cbv iota. change (117 =? 117) with true. cbv iota.
    rewrite (len_app_lt ds t 4 L : (len (ds ++ t) <? 4) = false). rewrite (proj2 (accum4 ds cp t L R)). cbn [bind]. now rewrite (append_ok cp bs).
Qed.
Lemma ds_item_nonempty q i v : ds_item q i v -> i <> [].
Proof. intros []; discriminate. Qed.
Lemma ds_complete q body w : q <> 92 -> ds_denotes q body w -> forall fuel out rest, (List.length body < fuel)%nat ->
  ds_quoted_loop fuel q (body ++ q :: rest) out = Ok (out ++ w, rest).
Proof.
  intros Q. induction 1 as [|i v t w Hi Ht IH]; intros fuel out rest L.
  - destruct fuel as [|fuel]; [cbn in L; lia|]. cbn [ds_quoted_loop app at_end deref bind tl]. destruct (Z.eqb_spec q 92); [congruence|]. rewrite Z.eqb_refl. cbn [negb]. now rewrite app_nil_r.
  - pose proof (ds_item_nonempty _ _ _ Hi). rewrite app_length in L. destruct fuel as [|fuel]; [lia|]. rewrite <- app_assoc, (ds_item_step q i v) by auto.
    rewrite IH by (destruct i; [congruence|cbn in L; lia]). now rewrite <- app_assoc.
Qed.
Lemma ds_hex_inv n : forall it c, (n <= List.length it)%nat ->
  (exists ds r v, it = ds ++ r /\ List.length ds = n /\ hex_run c ds v) \/ ds_hex n (u32 c) it = Throw "internal_parse_error".
Proof.
  induction n as [|n IH]; intros it c L; cbn [ds_hex].
  - left. exists [], it, c. split; [auto|split; [auto|constructor]].
  - destruct it as [|d it]; [cbn in L; lia|]. cbn [deref bind tl]. destruct (hex_digit d) as [v|] eqn:H; auto.
    destruct (IH it (16 * c + v) ltac:(cbn in L; lia)) as [(ds & r & w & -> & Ld & R)|E].
    + left. exists (d :: ds), r, w. split; [auto|split; [cbn; lia|econstructor; eauto]].
    + right. rewrite <- E. f_equal. unfold u32, wrap. rewrite Zmult_mod_idemp_l, Zplus_mod_idemp_l. f_equal. lia.
Qed.
Lemma ds_sound q fuel : q = 39 \/ q = 34 -> forall it out, (List.length it < fuel)%nat ->
  (exists body w rest, it = body ++ q :: rest /\ ds_denotes q body w) \/ exists e, ds_quoted_loop fuel q it out = Throw e.
Proof.
  intros Q. assert (Q2 : q <> 92) by lia. induction fuel as [|fuel IH]; intros it out L; [lia|].
  assert (ST : forall i v t, it = i ++ t -> ds_item q i v ->
     (exists body w rest, it = body ++ q :: rest /\ ds_denotes q body w) \/ exists e, ds_quoted_loop (S fuel) q it out = Throw e).
  { intros i v t E Hi. pose proof (ds_item_nonempty _ _ _ Hi). rewrite E, (ds_item_step q i v) by auto.
    assert (Lt : (List.length t < fuel)%nat) by (rewrite E, app_length in L; destruct i; [congruence|cbn in L; lia]).
    destruct (IH t (out ++ v) Lt) as [(body & w & rest & -> & B)|T]; [left|right; exact T].
    exists (i ++ body), (v ++ w), rest. split; [now rewrite <- app_assoc|econstructor; eauto]. }
  destruct it as [|c it]; [right; eexists; reflexivity|].
  destruct (Z.eqb_spec c 92) as [->|N].
  - destruct it as [|e it]; [right; eexists; reflexivity|].
    destruct (if e =? 39 then Some 39 else escape_char e) as [v|] eqn:S.
    { apply quote_escape_iff in S. apply (ST [92; e] [v] it); auto. now constructor. }
    assert (N39 : e <> 39) by (intros ->; discriminate). destruct (Z.eqb_spec e 39) as [?|_]; [congruence|].
    destruct (Z.eqb_spec e 117) as [->|N1].
    { assert (X : forall x, (x <? 4) = true -> len it = x -> exists e, ds_quoted_loop (Datatypes.S fuel) q (92 :: 117 :: it) out = Throw e).
      { intros x Hx <-. cbn [ds_quoted_loop at_end deref bind tl]. change (92 =? 92) with true. cbv iota. change (117 =? 39) with false. rewrite S. change (117 =? 117) with true. cbv iota. rewrite Hx. eauto. }
      destruct (len it <? 4) eqn:Ln; [right; eauto|]. pose proof Ln as Ln'. apply (len_ge it 4) in Ln'.
      assert (BAD : forall e, (do (cp, it3) <- ds_hex 4 0 it; do out' <- string_append_utf8 cp out; ds_quoted_loop fuel q it3 out') = Throw e ->
        exists e, ds_quoted_loop (Datatypes.S fuel) q (92 :: 117 :: it) out = Throw e).
      { intros e He. exists e. cbn [ds_quoted_loop at_end deref bind tl]. change (92 =? 92) with true. cbv iota. change (117 =? 39) with false. rewrite S. change (117 =? 117) with true. cbv iota. rewrite Ln. exact He. }
      destruct (ds_hex_inv 4 it 0 Ln') as [(ds & r & v & -> & Ld & R)|E].
      - apply hex_num_iff in R. destruct (scalar_dec v) as [Sc|NS].
        + destruct (utf8_append_spec v Sc) as (bs & _ & U & _). apply (ST (92 :: 117 :: ds) bs r); auto. econstructor; eauto.
        + right. apply (BAD "invalid_code_point"%string). rewrite (proj2 (accum4 ds v r Ld R)). cbn [bind]. rewrite append_bad; auto. apply hex_num_iff, hex_run_bound in R; lia.
      - change (u32 0) with 0 in E. right. apply (BAD "internal_parse_error"%string). now rewrite E. }
    right. exists "internal_parse_error"%string. cbn [ds_quoted_loop at_end deref bind tl]. change (92 =? 92) with true. cbv iota. destruct (Z.eqb_spec e 39); [congruence|]. rewrite S.
    destruct (Z.eqb_spec e 117); [congruence|]. reflexivity.
  - destruct (Z.eqb_spec c q) as [->|N1].
    + left. exists [], [], it. split; [reflexivity|constructor].
    + apply (ST [c] [c] it); auto. now constructor.
Qed.

Lemma ds_token1 s q : exists r, skipped s r /\ ds_parse_token s [q] = Ok (match r with c :: t => if c =? q then Some t else None | [] => None end).
Proof.
  destruct (skip_pound_total s) as (r & E & S). exists r. split; auto. unfold ds_parse_token. rewrite E. cbn [bind]. f_equal.
  unfold parse_token_no_ws. destruct r as [|c t]; [reflexivity|]. cbn [List.length starts_with]. replace (_ <=? _) with true by lia. reflexivity.
Qed.
Lemma ds_quoted_spec s : exists r, skipped s r /\ ds_parse_quoted_string s =
  match r with
  | c :: t => if (c =? 39) || (c =? 34) then do x <- ds_quoted_loop (S (List.length t)) c t []; Ok (Some x) else Ok None
  | [] => Ok None
  end.
Proof.
  destruct (ds_token1 s 39) as (r & S & E). destruct (ds_token1 s 34) as (r' & S' & E').
  pose proof (skipped_fun _ _ S _ S') as <-. exists r. split; auto. unfold ds_parse_quoted_string. rewrite E. cbn [bind]. destruct r as [|c t].
  - rewrite E'. reflexivity.
  - destruct (Z.eqb_spec c 39) as [->|N]; [reflexivity|]. rewrite E'. cbn [bind orb]. destruct (Z.eqb_spec c 34) as [->|N']; reflexivity.
Qed.
Lemma ds_quoted_iff s w rest : ds_parse_quoted_string s = Ok (Some (w, rest)) <->
  exists q body, (q = 39 \/ q = 34) /\ skipped s (q :: body ++ q :: rest) /\ ds_denotes q body w.
Proof.
  destruct (ds_quoted_spec s) as (r & S & ->). split.
  - intros H. destruct r as [|c t]; [discriminate|]. destruct (_ || _) eqn:Q; [|discriminate]. assert (Q' : c = 39 \/ c = 34) by lia.
    destruct (ds_sound c (Datatypes.S (List.length t)) Q' t [] (Nat.lt_succ_diag_r _)) as [(body & w' & rest' & -> & D)|(e & E)]; [|rewrite E in H; discriminate].
    rewrite (ds_complete c body w') in H; auto; [|lia|rewrite app_length; cbn; lia]. cbn [bind app] in H. injection H as <- <-. exists c, body. auto.
  - intros (q & body & Q & S' & D). pose proof (skipped_fun _ _ S _ S') as ->. replace (_ || _) with true by lia.
    rewrite (ds_complete q body w); auto; [lia|rewrite app_length; cbn; lia].
Qed.
Lemma ds_quoted_none s : ds_parse_quoted_string s = Ok None <-> exists r, skipped s r /\ ~ next_is (fun c => c = 39 \/ c = 34) r.
Proof.
  destruct (ds_quoted_spec s) as (r & S & ->). split.
  - intros H. exists r. split; auto. destruct r as [|c t]; [apply not_next_nil|]. rewrite next_cons. destruct (_ || _) eqn:Q; [|lia].
    destruct (ds_quoted_loop _ _ _ _); discriminate.
  - intros (r' & S' & N). pose proof (skipped_fun _ _ S _ S') as <-. destruct r as [|c t]; auto. rewrite next_cons in N. replace (_ || _) with false by lia. auto.
Qed.
Lemma ds_quoted_safe s : okthrow (ds_parse_quoted_string s).
Proof.
  destruct (ds_quoted_spec s) as (r & S & ->). destruct r as [|c t]; [exact I|]. destruct (_ || _) eqn:Q; [|exact I]. assert (Q' : c = 39 \/ c = 34) by lia.
  destruct (ds_sound c (Datatypes.S (List.length t)) Q' t [] (Nat.lt_succ_diag_r _)) as [(body & w & rest & -> & D)|(e & E)].
  - rewrite (ds_complete c body w); auto; [exact I|lia|rewrite app_length; cbn; lia].
  - rewrite E. exact I.
Qed.

Definition quote_of (single : bool) : Z := if single then 39 else 34.
Lemma ds_escapes_in q e v : In (e, v) ((39, 39) :: escapes) -> ds_item q [92; e] [v].
Proof. intros H. now constructor. Qed.
Lemma ds_print_item sq cp bs : utf8_of cp bs -> cp < 0x10000 -> ds_item (quote_of sq) (print_escaped_unicode_codepoint cp sq) bs.
Proof.
  intros U B. pose proof (utf8_of_scalar _ _ U) as [S1 S2]. unfold print_escaped_unicode_codepoint, quote_of.
  assert (UU : ds_item (if sq then 39 else 34) ([92; 117] ++ hexadecimal_print16 (u16 cp)) bs).
  { destruct (print16 (u16 cp)) as [L H]; [unfold u16, wrap; apply Z.mod_pos_bound; lia|].
    unfold u16, wrap in *. rewrite Z.mod_small in * by lia. eapply ds_u; eauto. }
  destruct (Z.ltb_spec cp 128) as [A|A].
  - pose proof (utf8_ascii _ _ U A) as ->.
    destruct (Z.eqb_spec cp 8); [subst; apply ds_escapes_in; unfold escapes; cbn [In]; auto 12|].
    destruct (Z.eqb_spec cp 12); [subst; apply ds_escapes_in; unfold escapes; cbn [In]; auto 12|].
    destruct (Z.eqb_spec cp 10); [subst; apply ds_escapes_in; unfold escapes; cbn [In]; auto 12|].
    destruct (Z.eqb_spec cp 13); [subst; apply ds_escapes_in; unfold escapes; cbn [In]; auto 12|].
    destruct (Z.eqb_spec cp 9); [subst; apply ds_escapes_in; unfold escapes; cbn [In]; auto 12|].
    destruct (Z.eqb_spec cp 92); [subst; apply ds_escapes_in; unfold escapes; cbn [In]; auto 12|].
    destruct (Z.eqb_spec cp 39); [subst; destruct sq; [apply ds_escapes_in; cbn [In]; auto|constructor; lia]|].
    destruct (Z.eqb_spec cp 34); [subst; destruct sq; [constructor; lia|apply ds_escapes_in; unfold escapes; cbn [In]; auto 12]|].
    destruct (_ || _); [exact UU|]. constructor; destruct sq; lia.
  - replace (cp <? 65536) with true by lia. exact UU.
Qed.
Lemma ds_printed sq cps s : text utf8_of cps s -> Forall (fun cp => cp < 0x10000) cps -> ds_denotes (quote_of sq) (printed sq cps) s.
Proof.
  induction 1; intros F; cbn [printed flat_map]; [constructor|]. inversion F; subst. econstructor; eauto using ds_print_item.
Qed.
Lemma print_eq sq cps s : text utf8_of cps s -> print_escaped_utf8_string s sq = Ok (quote_of sq :: printed sq cps ++ [quote_of sq]).
Proof. intros T. unfold print_escaped_utf8_string. rewrite (print_loop sq cps s T) by lia. reflexivity. Qed.
Lemma quote_skipped sq t : skipped (quote_of sq :: t) (quote_of sq :: t).
Proof. constructor. rewrite next_cons. unfold space_c, quote_of. destruct sq; lia. Qed.
Lemma ds_round_trip sq cps s rest : text utf8_of cps s -> Forall (fun cp => cp < 0x10000) cps -> exists lit,
  print_escaped_utf8_string s sq = Ok lit /\ ds_parse_quoted_string (lit ++ rest) = Ok (Some (s, rest)).
Proof.
  intros T F. exists (quote_of sq :: printed sq cps ++ [quote_of sq]). split; [now apply print_eq|].
  apply ds_quoted_iff. exists (quote_of sq), (printed sq cps). split; [unfold quote_of; destruct sq; auto|split; [|now apply ds_printed]].
  cbn [app]. rewrite <- app_assoc. apply quote_skipped.
Qed.
Lemma ds_astral_loop sq cps s : text utf8_of cps s -> Exists (fun cp => 0x10000 <= cp) cps -> forall fuel t out, (List.length (printed sq cps ++ t) < fuel)%nat ->
  exists e, ds_quoted_loop fuel (quote_of sq) (printed sq cps ++ t) out = Throw e.
Proof.
  induction 1 as [|cp bs cps rest U T IH]; intros X fuel t out L; [inversion X|].
  destruct fuel as [|fuel]; [lia|]. cbn [printed flat_map] in *. rewrite <- app_assoc in *. rewrite app_length in L.
  destruct (Z.ltb_spec cp 0x10000) as [B|B].
  - inversion X as [? ? A|? ? A]; subst; [lia|]. pose proof (ds_print_item sq cp bs U B) as I. pose proof (ds_item_nonempty _ _ _ I).
    rewrite (ds_item_step _ _ bs) by (auto; unfold quote_of; destruct sq; lia). apply IH; auto.
    destruct (print_escaped_unicode_codepoint cp sq); [congruence|cbn in L; unfold printed; lia].
  - unfold print_escaped_unicode_codepoint. replace (cp <? 128) with false by lia. replace (cp <? 65536) with false by lia.
    exists "internal_parse_error"%string. cbn [ds_quoted_loop app at_end deref bind tl]. reflexivity.
Qed.
Lemma ds_astral sq cps s rest : text utf8_of cps s -> Exists (fun cp => 0x10000 <= cp) cps -> exists lit e,
  print_escaped_utf8_string s sq = Ok lit /\ ds_parse_quoted_string (lit ++ rest) = Throw e.
Proof.
  intros T X. pose (body := printed sq cps ++ quote_of sq :: rest).
  destruct (ds_astral_loop sq cps s T X (S (List.length body)) (quote_of sq :: rest) [] (Nat.lt_succ_diag_r _)) as (e & E).
  exists (quote_of sq :: printed sq cps ++ [quote_of sq]), e. split; [now apply print_eq|].
  destruct (ds_quoted_spec ((quote_of sq :: printed sq cps ++ [quote_of sq]) ++ rest)) as (r & S & ->).
  cbn [app] in S. rewrite <- app_assoc in S. cbn [app] in S. pose proof (skipped_fun _ _ S _ (quote_skipped sq _)) as ->.
  replace (_ || _) with true by (unfold quote_of; destruct sq; reflexivity). fold body. fold body in E. rewrite E. reflexivity.
Qed.

(** Missing values. *)
Lemma na_long s : 5 <= len s -> parse_na s = Ok false.
Proof. intros L. unfold parse_na. replace (len s =? 0) with false by lia. replace (len s =? 2) with false by lia. replace (len s =? 4) with false by lia. reflexivity. Qed.
Lemma na_iff s : parse_na s = Ok true <-> na_word s.
Proof.
  assert (C1 : codes "NA" = [78; 65]) by reflexivity. assert (C2 : codes "null" = [110; 117; 108; 108]) by reflexivity. assert (C3 : codes "None" = [78; 111; 110; 101]) by reflexivity.
  unfold na_word. rewrite C1, C2, C3. unfold parse_na, len.
  destruct s as [|a [|b [|c [|d [|e s]]]]]; cbn [List.length load_at nth_error bind Z.of_nat Pos.of_succ_nat Pos.succ Z.eqb Pos.eqb fold_case map].
  - split; auto.
  - split; [discriminate|]. intros [H|[H|[H|H]]]; discriminate.
  - split; [intros H; injection H as H; apply andb_true_iff in H as [H1 H2]; apply Z.eqb_eq in H1, H2; subst; auto|].
    intros [H|[H|[H|H]]]; try discriminate. injection H as -> ->. reflexivity.
  - split; [discriminate|]. intros [H|[H|[H|H]]]; discriminate.
  - destruct (ci a 78 && ci b 85 && ci c 76 && ci d 76) eqn:N.
    + split; auto. intros _. right; right; left. lows. reflexivity.
    + split.
      * intros H. injection H as H. do 3 (apply andb_true_iff in H; destruct H as [H ?]). repeat match goal with X : (_ =? _) = true |- _ => apply Z.eqb_eq in X end. subst. auto.
      * intros [H|[H|[H|H]]]; try discriminate.
        -- exfalso. symmetry in H. heads H. revert N. cis. discriminate.
        -- injection H as -> -> -> ->. reflexivity.
  - split.
    + intros H. pose proof (eq_trans (eq_sym (na_long (a :: b :: c :: d :: e :: s) ltac:(unfold len; cbn [List.length]; lia))) H). discriminate.
    + intros [H|[H|[H|H]]]; discriminate.
Qed.
Lemma na_total s : exists b, parse_na s = Ok b.
Proof.
  destruct (Z.leb_spec 5 (len s)) as [L|L]; [exists false; now apply na_long|]. unfold len in L.
  destruct s as [|a [|b [|c [|d [|e s]]]]]; cbn [List.length] in L; try lia; unfold parse_na, len;
    cbn [List.length load_at nth_error bind Z.of_nat Pos.of_succ_nat Pos.succ Z.eqb Pos.eqb]; eauto.
  destruct (_ && _); eauto.
Qed.
