(** More proofs about nd::json::parse: integers, options, totality and the other
    parser. *)
From Verif Require Import Base ParseIntModel ParseIntSpec ParseIntProofs ScanModel ScanSpec ScanProofs ScanProps EncodingModel EncodingSpec EncodingProofs
  EscapeModel EscapeSpec EscapeProofs EscapeProps JsonModel JsonSpec JsonProofs JsonParse JsonProps TextParseModel TextParseSpec TextParseProofs.
Open Scope Z_scope.

Lemma sized_pos sgn W : sized (SInt sgn W) -> 1 <= W <= 64.
Proof. cbn. lia. Qed.
Lemma pow_pos W : 1 <= W -> 0 < 2 ^ (W - 1) /\ 2 ^ W = 2 * 2 ^ (W - 1).
Proof. intros. split; [apply Z.pow_pos_nonneg; lia|now apply pow_half]. Qed.
Lemma congruent_eq sgn W a b : 1 <= W -> in_range sgn W a -> in_range sgn W b -> a mod 2 ^ W = b mod 2 ^ W -> a = b.
Proof.
  intros HW A B E. destruct (pow_pos W HW) as (P & Q). pose proof (Z.div_mod a (2 ^ W) ltac:(lia)). pose proof (Z.div_mod b (2 ^ W) ltac:(lia)).
  set (q := a / 2 ^ W - b / 2 ^ W). assert (D : a - b = 2 ^ W * q) by (unfold q; rewrite Z.mul_sub_distr_l; lia). clearbody q.
  assert (L : - 2 ^ W < a - b < 2 ^ W) by (unfold in_range in *; destruct sgn; lia). rewrite D in L. clear - D L P Q.
  assert (q = 0) as -> by nia. lia.
Qed.
Lemma neg_mod a m : m <> 0 -> (- (a mod m)) mod m = (- a) mod m.
Proof. intros. rewrite <- !(Z.sub_0_l (a mod m)), <- !(Z.sub_0_l a). rewrite Zminus_mod_idemp_r. reflexivity. Qed.
Lemma number_head s n : number s n -> exists c r, s = c :: r /\ c <> 45.
Proof.
  intros H. destruct s as [|c r]; [exfalso; inversion H; subst; try congruence; try (destruct ds; discriminate)|]. exists c, r. split; auto. intros ->.
  assert (D : forall ds t x, 45 :: r = ds ++ x :: t -> Forall digit ds -> x <> 45 -> False).
  { intros ds t x E F N. destruct ds as [|d ds]; cbn [app] in E; inversion E; subst; [congruence|]. inversion F; subst. unfold digit in *. lia. }
  inversion H; subst; try (eapply D; eauto; lia). match goal with F : Forall digit _ |- _ => inversion F; subst; unfold digit in *; lia end.
Qed.

(** ** Integers *)
Lemma int_text_got sgn W x v : 1 <= W -> int_text sgn W x v -> got sgn W x v.
Proof.
  intros HW (i & (N & neg & s & n & -> & Nu & -> & G) & R & ->). split; auto. exists (if neg then - n else n). split; auto. pose proof (number_nonneg _ _ Nu) as NN.
  destruct (pow_pos W HW) as (P & Q). destruct sgn.
  - cbn [in_range] in R. rewrite parse_s_exact with (n := n); auto; [|destruct neg; lia]. destruct neg.
    + destruct (Z.leb_spec n (2 ^ (W - 1))); auto; lia.
    + destruct (Z.ltb_spec n (2 ^ (W - 1))); auto; lia.
  - destruct neg; [specialize (G eq_refl); discriminate|]. cbn [in_range] in R. apply parse_u_complete; auto; lia.
Qed.
Lemma got_int sgn W x v : 1 <= W -> got sgn W x v -> exists i z, writes_int sgn x i /\ in_range sgn W z /\ v = VInt z /\ z mod 2 ^ W = i mod 2 ^ W /\ (Z.abs i < 2 ^ W -> z = i).
Proof.
  intros HW (N & z & P & ->). destruct (pow_pos W HW) as (PP & Q). destruct sgn.
  - destruct (parse_s_sound W x z HW P) as (neg & s & n & E & Nu & R & A & B). pose proof (number_nonneg _ _ Nu) as NN. exists (if neg then - n else n), z.
    split; [split; auto; exists neg, s, n; auto|]. split; auto. split; auto. split.
    + destruct neg; [rewrite B by auto; apply neg_mod; lia|rewrite A by auto; apply Z.mod_mod; lia].
    + destruct neg; intros L; [rewrite B by auto|rewrite A by auto]; rewrite Z.mod_small; lia.
  - destruct (parse_u_sound W x z ltac:(lia) P) as (n & Nu & ->). pose proof (number_nonneg _ _ Nu) as NN. exists n, (n mod 2 ^ W).
    split; [split; auto; exists false, x, n; repeat split; auto; discriminate|]. split; [apply Z.mod_pos_bound; lia|]. split; auto.
    split; [apply Z.mod_mod; lia|]. intros L. apply Z.mod_small. lia.
Qed.
Lemma around_mono (P Q : meaning) t v : (forall x v, P x v -> Q x v) -> around P t v -> around Q t v.
Proof. intros H (w & x & w' & A & B & C & D). exists w, x, w'. auto. Qed.
Lemma at_number s w x w' : ws w -> ws w' -> json_number x -> parse (PScalar (SInt (fst s) (snd s))) (w ++ x ++ w') =
  do v <- (if fst s then parse_s (snd s) x else parse_u (snd s) x); Ok (VInt v).
Proof.
  intros W W' N. rewrite parse_scalar. cbn [scalar_kern single]. rewrite starts_skip; [|auto|eapply value_starts; exact (g_number space_c dq_body _ N)].
  rewrite (single_int_some (fst s) (snd s) (x ++ w') x w'); auto; [|apply C17_json_number_complete; [auto|apply stop_wsn; auto]].
  destruct (if fst s then parse_s (snd s) x else parse_u (snd s) x); cbn [bind]; auto. rewrite skip_all by auto. reflexivity.
Qed.
Lemma too_large W w x w' i : 1 <= W -> ws w -> ws w' -> writes_int true x i -> Z.abs i < 2 ^ W -> ~ in_range true W i ->
  parse (PScalar (SInt true W)) (w ++ x ++ w') = Throw "overflow_error".
Proof.
  intros HW Ww Ww' (N & neg & s & n & -> & Nu & -> & _) L R. rewrite (at_number (true, W)) by auto. cbn [fst snd]. pose proof (number_nonneg _ _ Nu) as NN.
  destruct (pow_pos W HW) as (PP & Q). rewrite parse_s_exact with (n := n); auto; [|destruct neg; lia]. cbn [in_range] in R. destruct neg.
  - destruct (Z.leb_spec n (2 ^ (W - 1))); auto. exfalso. lia.
  - destruct (Z.ltb_spec n (2 ^ (W - 1))); auto. exfalso. lia.
Qed.
Lemma parse_u_minus W s : parse_u W (45 :: s) = Throw "invalid_argument".
Proof. reflexivity. Qed.
Lemma unsigned_minus W w s w' : ws w -> ws w' -> json_number (45 :: s) -> parse (PScalar (SInt false W)) (w ++ (45 :: s) ++ w') = Throw "invalid_argument".
Proof. intros Ww Ww' N. rewrite (at_number (false, W)) by auto. cbn [fst snd]. rewrite parse_u_minus. reflexivity. Qed.
Lemma not_number_throws sgn W t : (forall w x w', ws w -> ws w' -> t = w ++ x ++ w' -> ~ json_number x) -> exists e, parse (PScalar (SInt sgn W)) t = Throw e.
Proof.
  intros H. rewrite parse_scalar. cbn [scalar_kern single]. destruct (number_cases (skip_whitespace t)) as [(m & r & X & E & N)|X].
  - rewrite (single_int_some _ _ _ _ _ X E). assert (T : (exists v, (if sgn then parse_s W m else parse_u W m) = Ok v) \/ (exists e, (if sgn then parse_s W m else parse_u W m) = Throw e)).
    { destruct sgn; [|apply parse_u_total]. unfold parse_s. destruct (strip_minus m) as (neg, u). destruct (parse_u_total W u) as [(y & ->)|(e & ->)]; cbn [bind]; [|eauto].
      destruct (neg && _); [eauto|]. destruct (is_overflow _ _ _ _ _); eauto. }
    destruct T as [(v & ->)|(e & ->)]; cbn [bind]; [|eauto]. destruct (skip_whitespace r) as [|c l] eqn:S; [|eauto].
    exfalso. apply skip_end in S. destruct (skip_ws_inv t) as (w & Et & Ww & _). rewrite E in Et. eapply (H w m r); eauto.
  - rewrite single_int_none by auto. cbn [bind]. eauto.
Qed.

(** ** Missing values *)
Lemma lower_is c l : 97 <= l <= 122 -> (lower_c c = l <-> c = l \/ c = l - 32).
Proof. intros L. unfold lower_c. destruct (Z.leb_spec 65 c), (Z.leb_spec c 90); cbn [andb]; lia. Qed.
Lemma ci_lower c u : 65 <= u <= 90 -> (ci c u = true <-> lower_c c = u + 32).
Proof. intros U. unfold ci. rewrite lower_is by lia. rewrite orb_true_iff, !Z.eqb_eq. lia. Qed.
Lemma null_word a b c d : ci a 78 && ci b 85 && ci c 76 && ci d 76 = true <-> fold_case [a; b; c; d] = codes "null".
Proof.
  rewrite !andb_true_iff, (ci_lower a 78), (ci_lower b 85), (ci_lower c 76), (ci_lower d 76) by lia. cbn [fold_case map]. change (codes "null") with [110; 117; 108; 108]. split.
  - intros (((-> & ->) & ->) & ->). reflexivity.
  - intros H. injection H as A B C D. rewrite A, B, C, D. auto.
Qed.
Definition na_rest (it r : list Z) : Prop := exists w, it = w ++ r /\ na_word w /\ (w = [] -> r = []).
Lemma four (w r : list Z) : List.length w = 4%nat -> forall it, it = w ++ r -> exists a b c d, it = a :: b :: c :: d :: r /\ w = [a; b; c; d].
Proof. intros L it ->. destruct w as [|a [|b [|c [|d [|]]]]]; try discriminate. eexists _, _, _, _. split; reflexivity. Qed.
Lemma na_forms it r : na_rest it r <->
  (it = [] /\ r = []) \/ it = 78 :: 65 :: r \/ (exists a b c d, it = a :: b :: c :: d :: r /\
     ((ci a 78 && ci b 85 && ci c 76 && ci d 76) || ((a =? 78) && (b =? 111) && (c =? 110) && (d =? 101))) = true).
Proof.
  unfold na_rest. split.
  - intros (w & -> & [ -> | [ -> | [F | -> ]]] & E).
    + left. rewrite E; auto.
    + right. left. reflexivity.
    + right. right. assert (L : List.length w = 4%nat). { apply (f_equal (@List.length Z)) in F. unfold fold_case in F. rewrite map_length in F. exact F. }
      destruct (four w r L _ eq_refl) as (a & b & c & d & E1 & E2). exists a, b, c, d. split; auto. rewrite E2 in F. apply null_word in F. rewrite F. reflexivity.
    + right. right. exists 78, 111, 110, 101. split; reflexivity.
  - intros [(-> & ->)|[ -> |(a & b & c & d & -> & H)]].
    + exists []. split; auto. split; [left; auto|auto].
    + exists [78; 65]. split; auto. split; [right; left; reflexivity|discriminate].
    + exists [a; b; c; d]. split; auto. split; [|discriminate]. apply orb_true_iff in H as [H|H].
      * right. right. left. now apply null_word.
      * right. right. right. repeat (apply andb_true_iff in H as (H & ?)). repeat match goal with X : (_ =? _) = true |- _ => apply Z.eqb_eq in X end. subst. reflexivity.
Qed.
Lemma len4 (it : list Z) a b c d r : it = a :: b :: c :: d :: r -> 4 <=? len it = true.
Proof. intros ->. unfold len. cbn [List.length]. apply Z.leb_le. lia. Qed.
Lemma pk_na it : match pk_parse_na it with
  | Ok (Some r) => na_rest it r
  | Ok None => forall r, ~ na_rest it r
  | _ => False end.
Proof.
  unfold pk_parse_na. destruct it as [|a [|b [|c [|d r]]]].
  - cbn. apply na_forms. auto.
  - cbn. intros r H. apply na_forms in H as [(H & _)|[H|(? & ? & ? & ? & H & _)]]; inversion H.
  - cbn -[Z.eqb]. destruct ((a =? 78) && (b =? 65)) eqn:E.
    + apply na_forms. apply andb_true_iff in E as (A & B). apply Z.eqb_eq in A, B. subst. auto.
    + cbn. intros r H. apply na_forms in H as [(H & _)|[H|(? & ? & ? & ? & H & _)]]; inversion H; subst. discriminate.
  - cbn -[Z.eqb]. destruct ((a =? 78) && (b =? 65)) eqn:E.
    + apply na_forms. apply andb_true_iff in E as (A & B). apply Z.eqb_eq in A, B. subst. auto.
    + cbn. intros r H. apply na_forms in H as [(H & _)|[H|(? & ? & ? & ? & H & _)]]; inversion H; subst. discriminate.
  - rewrite (len4 _ _ _ _ _ _ eq_refl). cbn [load_at nth_error bind].
    destruct ((ci a 78 && ci b 85 && ci c 76 && ci d 76) || ((a =? 78) && (b =? 111) && (c =? 110) && (d =? 101))) eqn:E; cbn [bind].
    + cbn [skipn]. apply na_forms. right. right. exists a, b, c, d. auto.
    + assert (L2 : 2 <=? len (a :: b :: c :: d :: r) = true) by (apply Z.leb_le; unfold len; cbn [List.length]; lia). rewrite L2. cbn [bind].
      destruct ((a =? 78) && (b =? 65)) eqn:F.
      * cbn [skipn]. apply na_forms. apply andb_true_iff in F as (A & B). apply Z.eqb_eq in A, B. subst. auto.
      * assert (L0 : len (a :: b :: c :: d :: r) =? 0 = false) by (apply Z.eqb_neq; unfold len; cbn [List.length]; lia). rewrite L0.
        intros r' H. apply na_forms in H as [(H & _)|[H|(a' & b' & c' & d' & H & Q)]]; inversion H; subst; [discriminate|congruence].
Qed.
Lemma na_start it r : na_rest it r -> it = [] \/ exists c s, it = c :: s /\ (c = 78 \/ c = 110).
Proof.
  intros H. apply na_forms in H as [(-> & _)|[ -> |(a & b & c & d & -> & Q)]]; auto; right.
  - eexists _, _. split; eauto.
  - exists a. eexists. split; [reflexivity|]. unfold ci in Q. apply orb_true_iff in Q as [Q|Q]; repeat (apply andb_true_iff in Q as (Q & _)).
    + apply orb_true_iff in Q as [Q|Q]; apply Z.eqb_eq in Q; lia.
    + apply Z.eqb_eq in Q. lia.
Qed.
(** No scalar starts like that. *)
Lemma na_not_scalar s it r : na_rest it r -> exists e, single (scalar_kern s) it = Throw e.
Proof.
  intros H. apply na_start in H as [ -> |(c & t & -> & C)].
  - destruct s; cbn [scalar_kern single]; [|rewrite single_int_none by reflexivity; eauto|]; cbn; eauto.
  - assert (N : json_parse_number (c :: t) = Ok None) by (apply number_none; [lia|unfold digit_c; lia]).
    assert (Q : parse_doublequote_string_no_ws (c :: t) = Ok None) by (apply C19_no_match; rewrite next_cons; lia).
    assert (S : ~ space_c c) by (unfold space_c; lia).
    destruct s; cbn [scalar_kern single].
    + unfold single_bool, json_parse_bool. change (lit "true") with [116; 114; 117; 101]. change (lit "false") with [102; 97; 108; 115; 101].
      rewrite !(token_no [] c t) by (auto; lia). cbn [app]. rewrite N. cbn [bind]. rewrite Q. cbn [bind]. eauto.
    + rewrite single_int_none by auto. eauto.
    + unfold single_string. rewrite skip_id by (rewrite next_cons; auto). rewrite Q. cbn [bind]. eauto.
Qed.
Lemma parse_option s na t : stands_missing s na -> parse (POption s) t =
  do (v, r) <- single (KOption (KNa na) (scalar_kern s)) (skip_whitespace t); match skip_whitespace r with [] => Ok v | _ => Throw "json_parse_error" end.
Proof. intros H. destruct H; reflexivity. Qed.
Lemma option_step na s it : (exists r, na_rest it r /\ single (KOption (KNa na) (scalar_kern s)) it = Ok (na, r)) \/
  ((forall r, ~ na_rest it r) /\ single (KOption (KNa na) (scalar_kern s)) it = single (scalar_kern s) it).
Proof.
  cbn [single]. pose proof (pk_na it) as H. destruct (pk_parse_na it) as [[r|]| | |]; try contradiction; cbn [bind]; [left; eauto|right; auto].
Qed.
Lemma option_parse s na t v : stands_missing s na ->
  (parse (POption s) t = Ok v <-> around (fun x u => na_word x /\ u = na) t v \/ parse (PScalar s) t = Ok v).
Proof.
  intros M. rewrite (parse_option s na t M), parse_scalar. destruct (option_step na s (skip_whitespace t)) as [(r & R & E)|(R & E)]; rewrite E.
  - destruct (na_not_scalar s _ _ R) as (e & T). rewrite T. cbn [bind]. destruct (skip_ws_inv t) as (w & Et & W & N). destruct R as (x & Ex & Nx & Empty).
    split.
    + intros H. left. destruct (skip_whitespace r) eqn:S; [|discriminate]. inversion H; subst. apply skip_end in S. exists w, x, r. rewrite <- Ex. auto.
    + intros [(w1 & x1 & w1' & W1 & W1' & Et' & Nx1 & ->)|H]; [|discriminate]. assert (S : ws r); [|apply skip_end in S; rewrite S; auto].
      destruct (na_word_dec x1) as [_|]; [|contradiction]. destruct x1 as [|c x1].
      * cbn [app] in Et'. rewrite Et', skip_all in Ex by (apply Forall_app; auto). destruct x; [|discriminate]. cbn in Ex. subst. constructor.
      * assert (R1 : na_rest (skip_whitespace t) w1').
        { exists (c :: x1). rewrite Et'. cbn [app]. assert (Sc : ~ space_c c).
          { destruct (na_start (c :: x1) []) as [Q|(c' & s' & Q & C)]; [exists (c :: x1); rewrite app_nil_r; auto|discriminate|]. inversion Q; subst. unfold space_c. lia. }
          rewrite skip_app by auto. split; auto. split; auto. discriminate. }
        assert (R0 : na_rest (skip_whitespace t) r) by (exists x; auto). apply na_forms in R1. apply na_forms in R0.
        destruct R1 as [(Q1 & ->)|[Q1|(a1 & b1 & c1 & d1 & Q1 & K1)]], R0 as [(Q0 & ->)|[Q0|(a0 & b0 & c0 & d0 & Q0 & K0)]]; rewrite Q1 in Q0; try discriminate Q0; try constructor.
        -- inversion Q0; subst; auto.
        -- inversion Q0; subst. cbn in K0. discriminate.
        -- inversion Q0; subst. cbn in K1. discriminate.
        -- inversion Q0; subst; auto.
  - split; [auto|]. intros [(w1 & x1 & w1' & W1 & W1' & Et' & Nx1 & _)|H]; auto. exfalso. destruct x1 as [|c x1].
    + apply (R []). rewrite Et'. cbn [app]. rewrite skip_all by (apply Forall_app; auto). exists []. auto.
    + apply (R w1'). exists (c :: x1). rewrite Et'. cbn [app]. assert (Sc : ~ space_c c).
      { destruct (na_start (c :: x1) []) as [Q|(c' & s' & Q & C)]; [exists (c :: x1); rewrite app_nil_r; split; [auto|split; [auto|discriminate]]|discriminate|]. inversion Q; subst. unfold space_c. lia. }
      rewrite skip_app by auto. split; auto. split; auto. discriminate.
Qed.
