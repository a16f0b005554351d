(** Proofs about format_json: the text is JSON and means the value. *)
From Verif Require Import Base ParseIntModel ParseIntSpec ParseIntProofs ScanModel ScanSpec ScanProofs ScanProps EncodingModel EncodingSpec EncodingProofs
  EscapeModel EscapeSpec EscapeProofs EscapeProps DatashapeModel DatashapePrint JsonModel JsonSpec JsonProofs JsonParse JsonRead JsonTotal.
Open Scope Z_scope.

Definition okbuf (o : obuf) : Prop := len (otext o) <= ocap o.
Definition emits (f : obuf -> outcome obuf) (bs : list Z) : Prop := forall o, okbuf o -> exists o', f o = Ok o' /\ otext o' = otext o ++ bs /\ okbuf o'.
Lemma ensure_ok o n : okbuf o -> otext (ensure_capacity o n) = otext o /\ okbuf (ensure_capacity o n) /\ len (otext o) + n <= ocap (ensure_capacity o n).
Proof.
  unfold okbuf, ensure_capacity. intros B. cbv zeta. destruct (Z.ltb_spec (ocap o - len (otext o)) n) as [L|L]; cbn [otext ocap]; [|split; auto; lia]. split; auto.
  destruct (Z.ltb_spec (2 * ocap o) (len (otext o) + n)); unfold len in *; lia.
Qed.
Lemma put_ok o bs : len (otext o) + len bs <= ocap o -> exists o', put o bs = Ok o' /\ otext o' = otext o ++ bs /\ okbuf o'.
Proof.
  intros B. unfold put. destruct (Z.leb_spec (len (otext o) + len bs) (ocap o)); [|lia]. eexists. split; [reflexivity|]. split; [reflexivity|]. unfold okbuf. cbn [otext ocap]. rewrite len_app'. lia.
Qed.
Lemma write_emits bs : emits (fun o => write o bs) bs.
Proof.
  intros o B. unfold write. destruct (ensure_ok o (len bs) B) as (E & B' & C). rewrite <- E in C |- *. destruct (put_ok (ensure_capacity o (len bs)) bs C) as (o' & P & T & B2). rewrite E in T. exists o'. rewrite E. auto.
Qed.
Lemma emits_bind f g a b : emits f a -> emits g b -> emits (fun o => do o <- f o; g o) (a ++ b).
Proof. intros F G o B. destruct (F o B) as (o1 & E1 & T1 & B1). destruct (G o1 B1) as (o2 & E2 & T2 & B2). exists o2. rewrite E1. cbn [bind]. rewrite E2. split; auto. split; auto. now rewrite T2, T1, app_assoc. Qed.
Lemma emits_nil : emits (fun o => Ok o) [].
Proof. intros o B. exists o. rewrite app_nil_r. auto. Qed.

(** ** Strings *)
Definition spells (t bs : list Z) : Prop := (forall r, rfc_string r -> rfc_string (t ++ r)) /\ (forall r w, dq_denotes r w -> dq_denotes (t ++ r) (bs ++ w)).
Lemma spells_escape e v : escape_char e = Some v -> spells [92; e] [v].
Proof. intros H. apply escape_char_iff in H. split; [intros r R; apply (rs_escape e v r); auto|]. intros r w D. apply (dd_cons [92; e] [v]); auto. now constructor. Qed.
Lemma plain_denotes bs r w : Forall (fun c => c <> 34 /\ c <> 92) bs -> dq_denotes r w -> dq_denotes (bs ++ r) (bs ++ w).
Proof. intros F D. induction F as [|c bs (A & B) _ IH]; auto. apply (dd_cons [c] [c]); auto. constructor; auto. Qed.
Lemma spells_plain cp bs : utf8_of cp bs -> 32 <= cp -> cp <> 34 -> cp <> 92 -> spells bs bs.
Proof. intros U A B C. split; [intros r R; eapply rs_char; eauto|]. intros r w D. apply plain_denotes; auto. eapply utf8_plain; eauto. Qed.
Lemma escape_emits cp bs : utf8_of cp bs -> exists t, emits (fun o => json_escape o cp) t /\ spells t bs.
Proof.
  intros U. pose proof (utf8_of_scalar _ _ U) as [S1 S2]. unfold json_escape. destruct (Z.ltb_spec cp 128) as [A|A].
  - pose proof (utf8_ascii _ _ U A) as ->.
    destruct (Z.eqb_spec cp 8); [subst; eexists; split; [apply write_emits|now apply spells_escape]|].
    destruct (Z.eqb_spec cp 12); [subst; eexists; split; [apply write_emits|now apply spells_escape]|].
    destruct (Z.eqb_spec cp 10); [subst; eexists; split; [apply write_emits|now apply spells_escape]|].
    destruct (Z.eqb_spec cp 13); [subst; eexists; split; [apply write_emits|now apply spells_escape]|].
    destruct (Z.eqb_spec cp 9); [subst; eexists; split; [apply write_emits|now apply spells_escape]|].
    destruct (Z.eqb_spec cp 92); [subst; eexists; split; [apply write_emits|now apply spells_escape]|].
    destruct (Z.eqb_spec cp 47); [subst; eexists; split; [apply write_emits|now apply spells_escape]|].
    destruct (Z.eqb_spec cp 34); [subst; eexists; split; [apply write_emits|now apply spells_escape]|].
    destruct ((cp <? 32) || (cp =? 127)) eqn:C.
    + eexists. split; [apply write_emits|]. destruct (print16 (u16 cp)) as [L H]; [unfold u16; apply Z.mod_pos_bound; lia|]. unfold u16 in *. rewrite Z.mod_small in * by lia.
      split; [intros r R; apply (rs_u _ cp r); auto|]. intros r w D. apply (dd_cons (92 :: 117 :: hexadecimal_print16 cp) [cp]); auto. eapply it_u; eauto.
    + exists [u8 cp]. split; [apply write_emits|]. unfold u8. rewrite Z.mod_small by lia. apply orb_false_iff in C as (C1 & C2). apply Z.ltb_ge in C1. eapply spells_plain; eauto.
  - exists bs. split; [|eapply spells_plain; eauto; lia]. intros o B. destruct (ensure_ok o 16 B) as (E & B' & C). pose proof (utf8_len _ _ U) as LB.
    rewrite (append_complete Utf8 true cp bs) by (auto; unfold len in *; rewrite E; lia). cbn [bind]. destruct (put_ok (ensure_capacity o 16) bs) as (o' & P & T & B2); [rewrite E; lia|]. exists o'. rewrite E in T. auto.
Qed.
Lemma chars_emits cps s : text utf8_of cps s -> forall f, (List.length s <= f)%nat -> exists b, emits (format_chars f s) b /\ rfc_string b /\ dq_denotes b s.
Proof.
  induction 1 as [|cp bs cps rest U T IH]; intros f L.
  - exists []. split; [destruct f; apply emits_nil|]. split; constructor.
  - pose proof (utf8_len _ _ U) as LB. unfold len in LB. destruct f as [|f]; [rewrite app_length in L; lia|]. destruct (IH f) as (b & Eb & Rb & Db); [rewrite app_length in L; lia|].
    destruct (escape_emits cp bs U) as (t & Et & St1 & St2). exists (t ++ b). split; [|split; auto].
    assert (X : forall o, format_chars (S f) (bs ++ rest) o = do o <- json_escape o cp; format_chars f rest o).
    { intros o. destruct (bs ++ rest) as [|c0 r0] eqn:E0; [destruct bs; [cbn in LB; lia|discriminate]|]. cbn [format_chars]. rewrite <- E0. rewrite (next_complete Utf8 true cp bs rest U). reflexivity. }
    intros o B. rewrite X. apply (emits_bind _ _ _ _ Et Eb o B).
Qed.
Lemma encoded_emits s : utf8_text s -> exists b, emits (format_json_encoded_string (List.length s) s) (quoted b) /\ rfc_string b /\ dq_denotes b s.
Proof.
  intros (cps & T). destruct (chars_emits cps s T (List.length s) (Nat.le_refl _)) as (b & E & R & D). exists b. split; auto.
  apply (emits_bind (fun o => write o [34]) (fun o => do o <- format_chars (List.length s) s o; write o [34]) [34] (b ++ [34])); [apply write_emits|]. apply emits_bind; auto. apply write_emits.
Qed.

(** ** Numbers *)
Lemma uint_digits ds : uint_lit ds -> ds <> [] /\ Forall digit ds.
Proof. intros U. inversion U as [|c t C F]; subst; (split; [discriminate|]); repeat constructor; try (unfold digit; lia). exact F. Qed.
Lemma int_text_cases z : exists ds, uint_lit ds /\ dec_value ds = Z.abs z /\ int_text z = if z <? 0 then 45 :: ds else ds.
Proof.
  unfold int_text, dec_text. destruct (Z.ltb_spec z 0).
  - destruct (dec_loop_ok (S (Z.to_nat (- z))) (- z) [] ltac:(lia)) as (ds & E & U & V). exists ds. rewrite E, app_nil_r. split; auto. split; [lia|auto].
  - destruct (dec_loop_ok (S (Z.to_nat z)) z [] ltac:(lia)) as (ds & E & U & V). exists ds. rewrite E, app_nil_r. split; auto. split; [lia|auto].
Qed.
Lemma int_text_json z : json_number (int_text z).
Proof.
  destruct (int_text_cases z) as (ds & U & _ & ->). exists (if z <? 0 then [45] else []), ds, [], []. split; [destruct (z <? 0); constructor|]. split; [exact U|]. split; [constructor|]. split; [constructor|]. rewrite !app_nil_r. destruct (z <? 0); reflexivity.
Qed.
Lemma int_text_reads sgn W z : 2 <= W <= 64 -> in_range sgn W z -> (sgn = true -> W = 64 -> z <> - 2 ^ 63) -> reads_as sgn W (int_text z) z.
Proof.
  intros HW R N. destruct (int_text_cases z) as (ds & U & V & ->). exists (z <? 0), ds, (Z.abs z). destruct (uint_digits ds U) as (NE & F).
  assert (L : Z.abs z < 2 ^ 64). { unfold in_range in R. assert (2 ^ W <= 2 ^ 64) by (apply Z.pow_le_mono_r; lia). assert (2 ^ (W - 1) <= 2 ^ 63) by (apply Z.pow_le_mono_r; lia). destruct sgn; lia. }
  split; auto. split; [rewrite <- V; now constructor|]. split; auto. split; [destruct (Z.ltb_spec z 0); lia|]. auto.
Qed.

(** ** Sequences *)
Notation rfc := (json rfc_space rfc_string).
Fixpoint join (l : list (list Z)) : list Z := match l with [] => [] | [b] => b | b :: r => b ++ 44 :: join r end.
Lemma seq_emits fs bss : Forall2 emits fs bss -> emits (format_seq fs) (join bss).
Proof.
  induction 1 as [|f b fs bss E F IH]; [apply emits_nil|]. destruct F as [|f2 b2 fs bss E2 F].
  - intros o B. destruct (E o B) as (o' & E' & T). exists o'. cbn [format_seq join]. rewrite E'. auto.
  - cbn [join]. change (emits (fun o => do o <- f o; do o <- write o [44]; format_seq (f2 :: fs) o) (b ++ [44] ++ join (b2 :: bss))). apply emits_bind; auto. apply emits_bind; [apply write_emits|exact IH].
Qed.
Lemma rfc_element b : rfc Value b -> rfc Element b.
Proof. intros H. pose proof (g_element rfc_space rfc_string [] b [] (Forall_nil _) H (Forall_nil _)) as X. cbn [app] in X. now rewrite app_nil_r in X. Qed.
Lemma join_elements bss : Forall (rfc Value) bss -> bss <> [] -> rfc Elements (join bss).
Proof.
  induction 1 as [|b bss V F IH]; intros N; [congruence|]. destruct bss as [|b2 bss]; cbn [join]; [apply g_one, rfc_element, V|]. apply g_more; [now apply rfc_element|]. apply IH. discriminate.
Qed.
Lemma join_array bss : Forall (rfc Value) bss -> rfc Value (91 :: join bss ++ [93]).
Proof. intros F. destruct bss as [|b bss]; [apply (g_empty_array _ _ []); constructor|]. apply g_array, join_elements; auto. discriminate. Qed.
Inductive all3 {A B C} (R : A -> B -> C -> Prop) : list A -> list B -> list C -> Prop :=
| all3_nil : all3 R [] [] []
| all3_cons a b c x y z : R a b c -> all3 R x y z -> all3 R (a :: x) (b :: y) (c :: z).
Lemma join_seq Ms bss vs : all3 (fun (M : meaning) b v => M b v) Ms bss vs -> seq Ms (join bss) vs.
Proof.
  induction 1 as [|M b v Ms bss vs H A IH]; [constructor; constructor|]. destruct A as [|M2 b2 v2 Ms bss vs H2 A].
  - cbn [join]. pose proof (seq_one M [] b [] v (Forall_nil _) H (Forall_nil _)) as X. cbn [app] in X. now rewrite app_nil_r in X.
  - apply (seq_more M (M2 :: Ms) [] b [] v (join (b2 :: bss)) (v2 :: vs)); auto; discriminate.
Qed.

(** ** Members *)
Definition member_text (q b : list Z) : list Z := quoted q ++ 58 :: b.
Lemma member_emits n f q b : emits (format_json_encoded_string (List.length n) n) (quoted q) -> emits f b -> emits (format_member n f) (member_text q b).
Proof.
  intros N F. unfold format_member, member_text. apply emits_bind; auto. apply (emits_bind (fun o => write o [58]) f [58] b); auto. apply write_emits.
Qed.
Fixpoint idx (k : nat) (vs : list jval) : list (nat * jval) := match vs with [] => [] | v :: r => (k, v) :: idx (S k) r end.
Lemma idx_before k vs : forall i, (i < k)%nat -> lookup i (idx k vs) = None.
Proof. revert k. induction vs as [|v vs IH]; intros k i L; cbn [idx lookup]; auto. rewrite IH by lia. destruct (Nat.eqb_spec k i); auto. lia. Qed.
Lemma idx_lookup vs : forall k j v, nth_error vs j = Some v -> lookup (k + j) (idx k vs) = Some v.
Proof.
  induction vs as [|u vs IH]; intros k [|j] v N; try discriminate; cbn [idx lookup].
  - inversion N; subst. rewrite Nat.add_0_r, idx_before by lia. now rewrite Nat.eqb_refl.
  - cbn [nth_error] in N. replace (k + S j)%nat with (S k + j)%nat by lia. now rewrite (IH (S k) j v N).
Qed.
Lemma idx_fields tys vs : List.length vs = List.length tys -> fields_from tys (idx 0 vs) vs.
Proof. intros L. split; auto. intros i t v _ V. left. apply lookup_some. apply (idx_lookup vs 0 i v V). Qed.
Lemma nodup_first pre n post : NoDup (pre ++ n :: post) -> first_at (pre ++ n :: post) n (List.length pre).
Proof.
  intros D. split; [rewrite nth_error_app2, Nat.sub_diag by lia; reflexivity|]. intros j L E. rewrite nth_error_app1 in E by auto. apply nth_error_In in E. apply NoDup_remove_2 in D. apply D, in_or_app. auto.
Qed.
(** The texts of the fields, given their names and values. *)
Lemma members_ok names0 Ms0 : NoDup names0 -> forall names Ms vs qs bss pre preM, names0 = pre ++ names -> Ms0 = preM ++ Ms -> List.length pre = List.length preM ->
  Forall2 dq_denotes qs names -> all3 (fun (M : meaning) b v => M b v) Ms bss vs -> List.length names = List.length Ms -> Ms <> [] ->
  all_members names0 Ms0 (join (map (fun p => member_text (fst p) (snd p)) (combine qs bss))) (idx (List.length pre) vs).
Proof.
  intros ND. induction names as [|n names IH]; intros Ms vs qs bss pre preM EN EM LP FQ A3 LN NE; [destruct Ms; [congruence|discriminate]|].
  inversion FQ as [|q ? qs' ? D FQ' EQ1 EQ2]; subst qs. inversion A3 as [|M b v Ms' bss' vs' HM A3' EA1 EA2 EA3]; subst Ms bss vs; [discriminate|].
  assert (O : one_member names0 Ms0 (member_text q b) [(List.length pre, v)]).
  { pose proof (om_field names0 Ms0 [] q n [] [] b [] (List.length pre) M v) as X. cbn [app] in X. rewrite app_nil_r in X. apply X; auto.
    - subst names0. now apply nodup_first.
    - rewrite LP, EM, nth_error_app2, Nat.sub_diag by lia. reflexivity. }
  cbn [combine map fst snd idx]. destruct A3' as [|M2 b2 v2 Ms2 bss2 vs2 HM2 A32].
  - destruct names; [|discriminate]. inversion FQ'; subst. cbn [combine map join idx]. now apply am_one.
  - destruct names as [|n2 names]; [discriminate|]. destruct qs' as [|q2 qs']; [inversion FQ'|].
    specialize (IH (M2 :: Ms2) (v2 :: vs2) (q2 :: qs') (b2 :: bss2) (pre ++ [n]) (preM ++ [M])). rewrite !app_length in IH. cbn [List.length] in IH. rewrite Nat.add_1_r in IH.
    assert (X : all_members names0 Ms0 (join (map (fun p => member_text (fst p) (snd p)) (combine (q2 :: qs') (b2 :: bss2)))) (idx (S (List.length pre)) (v2 :: vs2))).
    { apply IH; [now rewrite <- app_assoc|now rewrite <- app_assoc|lia|exact FQ'|constructor; auto|cbn in LN |- *; lia|discriminate]. }
    exact (am_more names0 Ms0 _ _ _ _ O X).
Qed.
Lemma member_rfc q b : rfc_string q -> rfc Value b -> rfc Member (member_text q b).
Proof. intros Q V. pose proof (g_member rfc_space rfc_string [] q [] b (Forall_nil _) Q (Forall_nil _) (rfc_element _ V)) as X. exact X. Qed.
Lemma members_rfc ms : Forall (rfc Member) ms -> ms <> [] -> rfc Members (join ms).
Proof.
  induction 1 as [|b bss V F IH]; intros N; [congruence|]. destruct bss as [|b2 bss]; cbn [join]; [apply g_one_member, V|]. apply g_more_members; auto. apply IH. discriminate.
Qed.
Lemma object_rfc ms : Forall (rfc Member) ms -> rfc Value (123 :: join ms ++ [125]).
Proof. intros F. destruct ms as [|b bss]; [apply (g_empty_object _ _ []); constructor|]. apply g_object, members_rfc; auto. discriminate. Qed.

(** ** Values *)
Definition prints (al : bool) (tp : jty) (v : jval) (bs : list Z) : Prop :=
  emits (format_value al tp v) bs /\ rfc Value bs /\ (no_int64_min tp v -> means reads_as tp bs v).
Lemma pr_list tys : fold_right (fun t P => printable t /\ P) True tys <-> Forall printable tys.
Proof. induction tys; cbn; [split; auto|]. rewrite IHtys. split; [intros (A & B); auto|intros H; inversion H; auto]. Qed.
Lemma brackets_emits (a c : Z) f b : emits f b -> emits (fun o => do o <- write o [a]; do o <- f o; write o [c]) (a :: b ++ [c]).
Proof. intros F. apply (emits_bind (fun o => write o [a]) (fun o => do o <- f o; write o [c]) [a] (b ++ [c])); [apply write_emits|]. apply emits_bind; auto. apply write_emits. Qed.
Lemma list_ok al el vs : Forall (fun x => exists b, prints al el x b) vs -> exists bss, List.length bss = List.length vs /\ Forall2 emits (map (fun x => format_value al el x) vs) bss /\ Forall (rfc Value) bss /\
  (Forall (fun x => no_int64_min el x) vs -> all3 (fun (M : meaning) b v => M b v) (repeat (means reads_as el) (List.length vs)) bss vs).
Proof.
  induction 1 as [|v vs (b & E & R & M) F (bss & L & A & B & C)]; [exists []; repeat split; try constructor|].
  exists (b :: bss). cbn [map List.length repeat]. split; [now rewrite L|]. split; [constructor; auto|]. split; [constructor; auto|]. intros N. inversion N; subst. constructor; auto.
Qed.
Lemma fields_ok al tys : Forall (fun t => forall v, has_type t v -> exists b, prints al t v b) tys -> forall vs, all2 (map (fun t => has_type t) tys) vs ->
  exists fs bss, format_fields (map (fun t => format_value al t) tys) vs = Some fs /\ List.length bss = List.length tys /\ List.length vs = List.length tys /\ Forall2 emits fs bss /\ Forall (rfc Value) bss /\
  (all2 (map (fun t => no_int64_min t) tys) vs -> all3 (fun (M : meaning) b v => M b v) (map (fun t => means reads_as t) tys) bss vs).
Proof.
  induction 1 as [|t tys H F IH]; intros [|v vs] A; cbn [map all2] in A; try contradiction.
  - exists [], []. cbn. repeat split; try constructor.
  - destruct A as (A1 & A2). destruct (H v A1) as (b & E & R & M). destruct (IH vs A2) as (fs & bss & X & L & LV & Fe & Fr & Fm). exists (format_value al t v :: fs), (b :: bss). cbn [map format_fields List.length]. rewrite X.
    split; auto. split; [lia|]. split; [lia|]. split; [constructor; auto|]. split; [constructor; auto|]. cbn [all2]. intros (N1 & N2). constructor; auto.
Qed.
Lemma names_ok names : Forall utf8_text names -> exists qs, Forall2 (fun n q => emits (format_json_encoded_string (List.length n) n) (quoted q)) names qs /\ Forall rfc_string qs /\ Forall2 dq_denotes qs names.
Proof.
  induction 1 as [|n names T F (qs & A & B & C)]; [exists []; repeat split; constructor|]. destruct (encoded_emits n T) as (q & E & R & D). exists (q :: qs). repeat split; constructor; auto.
Qed.
Lemma zip_emits names : forall fs qs bss, Forall2 (fun n q => emits (format_json_encoded_string (List.length n) n) (quoted q)) names qs -> Forall2 emits fs bss -> List.length names = List.length fs ->
  Forall2 emits (zip_members names fs) (map (fun p => member_text (fst p) (snd p)) (combine qs bss)).
Proof.
  induction names as [|n names IH]; intros fs qs bss A B L; inversion A; subst; [constructor|]. destruct B as [|f b fs bss Ef B]; [discriminate|]. cbn [zip_members combine map fst snd]. constructor; [now apply member_emits|]. apply IH; auto.
Qed.
Lemma value_ok al tp : well_formed tp -> printable tp -> forall v, has_type tp v -> exists bs, prints al tp v bs.
Proof.
  induction tp as [|s W| | |W| |n el IH|el IH|tys IH|names tys IH] using jty_ind'; intros WF PR v HT; cbn [well_formed printable] in WF, PR; try rewrite wf_list in WF; try rewrite pr_list in PR;
    destruct v as [w|z|str|vs]; cbn [has_type] in HT; try contradiction.
  - eexists. split; [apply write_emits|]. destruct HT as [ -> | -> ]; cbn [Z.eqb negb]; (split; [constructor|]); intros _; [exact bm_false|exact bm_true].
  - exists (int_text z). split; [apply write_emits|]. split; [apply g_number, int_text_json|]. cbn [no_int64_min means]. intros N. apply im_number; [apply int_text_json|]. apply int_text_reads; auto. lia.
  - destruct (encoded_emits str HT) as (b & E & R & D). exists (quoted b). split; auto. split; [now apply g_string|]. intros _. cbn [means]. econstructor; eauto.
  - destruct HT as [ -> | [ -> | -> ]].
    + exists (lit "false"). split; [apply write_emits|]. split; [constructor|]. intros _. apply op_bool. exact bm_false.
    + exists (lit "true"). split; [apply write_emits|]. split; [constructor|]. intros _. apply op_bool. exact bm_true.
    + exists (lit "null"). split; [apply write_emits|]. split; [constructor|]. intros _. exact (op_null reads_as JOptBool _ na_bool).
  - unfold prints. cbn [format_value]. destruct (Z.eqb_spec z (tmin true W)) as [Q|Q]; cbn [negb].
    + exists (lit "null"). split; [apply write_emits|]. split; [constructor|]. intros _. subst z. exact (op_null reads_as (JOptInt W) _ (na_int W)).
    + exists (int_text z). split; [apply write_emits|]. split; [apply g_number, int_text_json|]. intros _. apply op_number; [apply int_text_json|]. apply int_text_reads; auto; [lia|]. intros _ -> X. apply Q. rewrite X. reflexivity.
  - destruct (encoded_emits str HT) as (b & E & R & D). exists (quoted b). split; auto. split; [now apply g_string|]. intros _. cbn [means]. apply op_string. econstructor; eauto.
  - destruct HT as (-> & HT). destruct (list_ok al el vs) as (bss & L & E & R & M). { eapply Forall_impl; [|exact HT]. intros x Hx. apply IH; tauto. }
    exists (91 :: join bss ++ [93]). split; [|split; [now apply join_array|]].
    + intros o B. cbn [format_value]. rewrite Z.eqb_refl. exact (brackets_emits 91 93 _ _ (seq_emits _ _ E) o B).
    + cbn [no_int64_min means]. intros N. exists (join bss), vs. split; auto. split; auto. rewrite Nat2Z.id. apply join_seq. auto.
  - destruct (list_ok al el vs) as (bss & L & E & R & M). { eapply Forall_impl; [|exact HT]. intros x Hx. apply IH; tauto. }
    exists (91 :: join bss ++ [93]). split; [|split; [now apply join_array|]].
    + exact (brackets_emits 91 93 _ _ (seq_emits _ _ E)).
    + cbn [no_int64_min means]. intros N. exists (join bss), vs. split; auto. split; auto. apply join_seq. auto.
  - destruct WF as (LN & WF). destruct PR as (ND & UN & PR). destruct (fields_ok al tys) with (vs := vs) as (fs & bss & X & L & LV & E & R & M); auto.
    { clear - IH WF PR. induction IH; inversion WF; inversion PR; subst; constructor; auto. }
    destruct al.
    + exists (91 :: join bss ++ [93]). split; [|split; [now apply join_array|]].
      * intros o B. cbn [format_value]. rewrite X. exact (brackets_emits 91 93 _ _ (seq_emits _ _ E) o B).
      * cbn [no_int64_min means]. intros N. exists vs. split; auto. left. exists (join bss). split; auto. apply join_seq. auto.
    + destruct (names_ok names UN) as (qs & Qe & Qr & Qd). set (ms := map (fun p => member_text (fst p) (snd p)) (combine qs bss)). assert (LF : List.length fs = List.length tys) by (rewrite <- L; eapply Forall2_length; eauto).
      exists (123 :: join ms ++ [125]). split; [|split].
      * intros o B. cbn [format_value]. rewrite X. refine (brackets_emits 123 125 _ _ (seq_emits _ _ _) o B). apply zip_emits; auto. lia.
      * apply object_rfc. unfold ms. apply Forall_map. clear - Qr R. revert bss R. induction Qr; intros bss R; [constructor|]. destruct R; constructor; auto. now apply member_rfc.
      * cbn [no_int64_min means]. intros N. exists vs. split; auto. right. exists (join ms), (idx 0 vs). split; auto. split; [apply idx_fields; auto|]. destruct tys as [|t0 tys0].
        -- left. destruct names; [|discriminate]. inversion Qd; subst. destruct vs; [|discriminate]. split; [constructor|reflexivity].
        -- right. apply (members_ok names (map (fun t => means reads_as t) (t0 :: tys0)) ND names (map (fun t => means reads_as t) (t0 :: tys0)) vs qs bss [] []); auto; [now rewrite map_length|discriminate].
Qed.
Lemma format_ok al tp v : well_formed tp -> printable tp -> has_type tp v -> exists t, format_json tp v al = Ok t /\ rfc8259 t /\ (no_int64_min tp v -> parse_json tp t = Ok v).
Proof.
  intros WF PR HT. destruct (value_ok al tp WF PR v HT) as (bs & E & R & M). destruct (E {| otext := []; ocap := 1024 |}) as (o & F & T & _); [unfold okbuf; cbn; lia|]. exists bs. unfold format_json. rewrite F. cbn [bind]. rewrite T. cbn [otext app].
  split; auto. split; [now apply rfc_element|]. intros N. apply parse_ideal; auto. exists [], bs, []. rewrite app_nil_r. repeat split; auto.
Qed.
Lemma tuple_throws al tys v : format_json (JTuple tys) v al = Throw "runtime_error".
Proof. reflexivity. Qed.
(** The smallest int64 is written, but reading it is undefined. *)
Lemma int64_min_ub al : exists t, format_json (JInt true 64) (VInt (- 2 ^ 63)) al = Ok t /\ rfc8259 t /\ parse_json (JInt true 64) t = UB.
Proof.
  destruct (format_ok al (JInt true 64) (VInt (- 2 ^ 63))) as (t & F & R & _); [cbn; auto|exact I|cbn; lia|]. exists t. split; auto. split; auto.
  assert (T : t = int_text (- 2 ^ 63)). { destruct (write_emits (int_text (- 2 ^ 63)) {| otext := []; ocap := 1024 |}) as (o & E & T & _); [unfold okbuf; cbn; lia|]. unfold format_json in F. change (format_value al (JInt true 64) (VInt (- 2 ^ 63))) with (fun o => write o (int_text (- 2 ^ 63))) in F. cbv beta in F. rewrite E in F. cbn [bind] in F. rewrite T in F. inversion F. reflexivity. }
  destruct (int_text_cases (- 2 ^ 63)) as (ds & U & V & E). change (- 2 ^ 63 <? 0) with true in E. cbv iota in E. rewrite E in T. subst t.
  assert (J : json_number (45 :: ds)) by (rewrite <- E; apply int_text_json). destruct (uint_digits ds U) as (NE & Fd).
  unfold parse_json. cbn [parse_value]. rewrite skip_id by (rewrite next_cons; nsc). unfold parse_number_json. rewrite <- (app_nil_r (45 :: ds)). rewrite (C17_json_number_complete (45 :: ds) [] J) by (apply not_next_nil'). cbn [bind].
  assert (S : string_to_number true 64 (45 :: ds) = UB); [|rewrite S; reflexivity].
  unfold string_to_number. destruct (ParseIntModel.parse_na (45 :: ds)) eqn:Na. { exfalso. destruct ds as [|a [|b [|c [|]]]]; cbn in Na; discriminate. }
  cbn [strip_minus Z.eqb Pos.eqb]. rewrite (parse_u_complete 64 ds (2 ^ 63)); [reflexivity|lia| |lia]. replace (2 ^ 63) with (dec ds) by exact V. now constructor.
Qed.
(** A string that starts with a byte that starts no character never ends. *)
Lemma format_stuck s fuel o : bytes s -> s <> [] -> bad_lead8 s -> okbuf o -> format_chars fuel s o = NoFuel.
Proof.
  intros B N L. revert o. induction fuel as [|f IH]; intros o O; destruct s as [|c s]; try congruence; cbn [format_chars]; auto. rewrite (noerror_utf8_stuck (c :: s) B N L). cbn [bind].
  destruct (write_emits [u8 63] o O) as (o' & E & _ & O'). change (json_escape o 63) with (write o [u8 63]). rewrite E. cbn [bind]. auto.
Qed.
