(** Proofs about the reports of errors. *)
From Verif Require Import Base ParseIntModel ParseIntSpec ParseIntProofs ScanModel ScanSpec EncodingModel EncodingSpec EscapeModel EscapeSpec DatashapeModel DatashapeProps JsonModel JsonSpec.
Open Scope Z_scope.

Lemma last_app (a b : list Z) x : b <> [] -> (exists y, a ++ b = y ++ [x]) <-> (exists y, b = y ++ [x]).
Proof.
  intros N. split.
  - intros (y & E). destruct (exists_last N) as (b' & z & ->). rewrite app_assoc in E. apply app_inj_tail in E as (_ & ->). eauto.
  - intros (y & ->). exists (a ++ y). now rewrite app_assoc.
Qed.
Lemma count_app (a b : list Z) : count_occ Z.eq_dec (a ++ b) 10%Z = (count_occ Z.eq_dec a 10%Z + count_occ Z.eq_dec b 10%Z)%nat.
Proof. apply count_occ_app. Qed.
Lemma cast32 x : 0 <= x < 2 ^ 31 -> cast true 32 x = x.
Proof. intros H. apply cast_id; [lia|]. unfold in_range. change (2 ^ (32 - 1)) with (2 ^ 31). lia. Qed.
(** [prev] is the line before the text that follows [a]. *)
Definition before (a prev : list Z) (line : Z) : Prop :=
  (a = [] /\ prev = [] /\ line = 1) \/
  (exists a', a = a' ++ prev ++ [10] /\ ~ In 10 prev /\ (a' = [] \/ exists a2, a' = a2 ++ [10]) /\ line = Z.of_nat (count_occ Z.eq_dec a 10) + 1).
Lemma before_line a prev line : before a prev line -> line = Z.of_nat (count_occ Z.eq_dec a 10) + 1.
Proof. intros [(-> & _ & ->)|(a' & _ & _ & _ & L)]; auto. Qed.
Lemma before_end a prev line : before a prev line -> a = [] \/ exists a2, a = a2 ++ [10].
Proof. intros [(-> & _)|(a' & -> & _)]; [auto|right]. exists (a' ++ prev). now rewrite app_assoc. Qed.
Lemma before_next a prev line u : before a prev line -> ~ In 10 u -> before (a ++ u ++ [10]) u (line + 1).
Proof.
  intros B N. right. exists a. split; auto. split; auto. split; [eapply before_end; eauto|]. rewrite (before_line _ _ _ B), !count_app. rewrite (proj1 (count_occ_not_In Z.eq_dec u 10) N). cbn [count_occ]. destruct (Z.eq_dec 10 10); [lia|congruence].
Qed.
Lemma context_ok f : forall t pos line a prev s, t = a ++ s -> before a prev line -> (List.length s < f)%nat -> Z.of_nat (List.length a) <= pos <= Z.of_nat (List.length t) -> len t < 2 ^ 31 - 1 ->
  (s = [] \/ (pos = len t /\ exists y, s = y ++ [10])) /\ error_context f pos (Z.of_nat (List.length a)) line prev s = Throw "runtime_error" \/
  ~ (s = [] \/ (pos = len t /\ exists y, s = y ++ [10])) /\ exists p c l k, error_context f pos (Z.of_nat (List.length a)) line prev s = Ok (p, c, l, k) /\ context t pos p c l k.
Proof.
  induction f as [|f IH]; intros t pos line a prev s E B L P T32; [lia|]. cbn [error_context]. destruct s as [|c0 s0]; [left; auto|]. set (s := c0 :: s0) in *. assert (NE : s <> []) by discriminate.
  unfold len in *. assert (LT : List.length t = (List.length a + List.length s)%nat) by (rewrite E, app_length; auto).
  pose proof (to_newline_spec s) as T. destruct (to_newline s) as [(k, r)|].
  - destruct T as (u & Es & Nu & Lk). cbv zeta. assert (LS : List.length s = (k + 1 + List.length r)%nat) by (rewrite Es, app_length; cbn [List.length]; lia).
    destruct (Z.ltb_spec pos (Z.of_nat (List.length a) + Z.of_nat k + 1)) as [Q|Q].
    + right. split. { intros [X|(X & _)]; [congruence|lia]. }
      exists prev, (firstn k s), line, (pos - Z.of_nat (List.length a) + 1). rewrite cast32 by lia. split; auto.
      assert (F : firstn k s = u) by (rewrite Es, <- Lk, firstn_app, Nat.sub_diag, firstn_all, firstn_O, app_nil_r; auto). rewrite F.
      set (j := Z.to_nat (pos - Z.of_nat (List.length a))). exists a, (firstn j u), (skipn j u), (10 :: r).
      assert (LJ : List.length (firstn j u) = j) by (rewrite firstn_length; lia).
      split; [rewrite E, Es; rewrite (app_assoc (firstn j u)), firstn_skipn; auto|]. split; [rewrite app_length, LJ; lia|]. split; [now rewrite firstn_skipn|]. split; auto. split; [eauto|]. split; [rewrite LJ; lia|exact B].
    + assert (F : firstn k s = u) by (rewrite Es, <- Lk, firstn_app, Nat.sub_diag, firstn_all, firstn_O, app_nil_r; auto). rewrite F.
      replace (Z.of_nat (List.length a) + Z.of_nat k + 1) with (Z.of_nat (List.length (a ++ u ++ [10]))) in * by (rewrite !app_length; cbn [List.length]; lia).
      assert (E2 : t = (a ++ u ++ [10]) ++ r) by (rewrite E, Es, <- !app_assoc; reflexivity).
      destruct (IH t pos (line + 1) (a ++ u ++ [10]) u r E2 (before_next _ _ _ _ B Nu) ltac:(lia) ltac:(lia) ltac:(unfold len; lia)) as [(H1 & H2)|(H1 & H2)]; [left|right]; (split; [|exact H2]).
      * right. destruct H1 as [->|(X & y & Y)]; [rewrite !app_length in Q; cbn [List.length] in *; split; [lia|exists u; exact Es]|]. split; auto. rewrite Es, Y. exists (u ++ 10 :: y). now rewrite <- app_assoc.
      * intros [X|(X & y & Y)]; [congruence|]. apply H1. destruct r as [|c1 r1]; [auto|]. right. split; auto. apply (last_app (u ++ [10]) (c1 :: r1)); [discriminate|]. exists y. rewrite <- app_assoc. cbn [app]. rewrite <- Es. exact Y.
  - right. split. { intros [X|(X & y & Y)]; [congruence|]. apply T. rewrite Y. apply in_or_app. cbn. auto. }
    exists prev, s, line, (pos - Z.of_nat (List.length a) + 1). rewrite cast32 by lia. split; auto. set (j := Z.to_nat (pos - Z.of_nat (List.length a))). exists a, (firstn j s), (skipn j s), [].
    assert (LJ : List.length (firstn j s) = j) by (rewrite firstn_length; lia).
    split; [rewrite app_nil_r, firstn_skipn; auto|]. split; [rewrite app_length, LJ; lia|]. split; [now rewrite firstn_skipn|]. split; auto. split; [auto|]. split; [rewrite LJ; lia|exact B].
Qed.
Lemma line_column_ok t pos : 0 <= pos <= len t -> len t < 2 ^ 31 - 1 ->
  (t = [] \/ (pos = len t /\ exists y, t = y ++ [10])) /\ get_error_line_column t pos = Throw "runtime_error" \/
  ~ (t = [] \/ (pos = len t /\ exists y, t = y ++ [10])) /\ exists p c l k, get_error_line_column t pos = Ok (p, c, l, k) /\ context t pos p c l k.
Proof.
  intros P T. apply (context_ok (S (List.length t)) t pos 1 [] [] t eq_refl); auto. left. auto.
Qed.

Lemma nth_firstn {A} (l : list A) n i : (i < n)%nat -> nth_error (firstn n l) i = nth_error l i.
Proof. revert n i. induction l as [|x l IH]; intros [|n] [|i] H; cbn; auto; try lia. apply IH. lia. Qed.
Lemma nth_skipn {A} (l : list A) n i : nth_error (skipn n l) i = nth_error l (n + i).
Proof. revert n. induction l as [|x l IH]; intros [|n]; cbn [skipn nth_error Nat.add]; auto. destruct i; auto. Qed.
Lemma notin_firstn (x : Z) n l : ~ In x l -> ~ In x (firstn n l).
Proof. intros N I. apply N. rewrite <- (firstn_skipn n l). apply in_or_app. auto. Qed.
Lemma notin_skipn (x : Z) n l : ~ In x l -> ~ In x (skipn n l).
Proof. intros N I. apply N. rewrite <- (firstn_skipn n l). apply in_or_app. auto. Qed.
Lemma dots1 : lit " ..." = [32; 46; 46; 46]. Proof. reflexivity. Qed.
Lemma dots2 : lit " ... " = [32; 46; 46; 46; 32]. Proof. reflexivity. Qed.
Lemma marker_ok prev cur line column : ~ In 10 cur -> 1 <= column <= len cur + 1 ->
  exists m, print_marker prev cur line column = Ok m /\ forall c, nth_error cur (Z.to_nat (column - 1)) = Some c -> caret_under m (Some c).
Proof.
  intros N C. unfold print_marker, len in *. destruct (Z.ltb_spec (Z.of_nat (List.length cur)) 200) as [S|S].
  - eexists. split; [reflexivity|]. intros c Hc. exists (if 1 <? line then prev ++ [10] else []), cur, (Z.to_nat (column - 1)). split; [unfold spaces; rewrite ?app_assoc; reflexivity|]. split; auto.
    split; [destruct (1 <? line); eauto|]. split; [lia|auto].
  - destruct (Z.ltb_spec column 80) as [S2|S2].
    + unfold substr. cbn [Z.ltb]. change (0 <? 0) with false. cbn [orb]. destruct (Z.ltb_spec (len cur) 0) as [X|X]; [unfold len in X; lia|]. cbn [bind]. eexists. split; [reflexivity|]. intros c Hc.
      exists [], (firstn 80 cur ++ lit " ..."), (Z.to_nat (column - 1)). cbn [app]. split; [unfold spaces; change (skipn (Z.to_nat 0) cur) with cur; change (Z.to_nat 80) with 80%nat; rewrite <- app_assoc; reflexivity|].
      assert (L : List.length (firstn 80 cur) = 80%nat) by (rewrite firstn_length; lia). split; [|split; [auto|split; [rewrite app_length, L; lia|]]].
      * rewrite in_app_iff, dots1. cbn [In]. intros [I|I]; [apply notin_firstn in I; auto|lia].
      * rewrite nth_error_app1 by lia. rewrite nth_firstn by lia. exact Hc.
    + unfold substr. destruct (Z.ltb_spec (column - 60 - 1) 0) as [X|X]; [lia|]. destruct (Z.ltb_spec (len cur) (column - 60 - 1)) as [Y|Y]; [unfold len in Y; lia|]. cbn [orb bind]. eexists. split; [reflexivity|]. intros c Hc.
      set (h := firstn (Z.to_nat 80) (skipn (Z.to_nat (column - 60 - 1)) cur)). exists [], (lit " ... " ++ h ++ lit " ..."), 65%nat. cbn [app].
      assert (LC : (Z.to_nat (column - 1) < List.length cur)%nat) by (apply nth_error_Some; congruence).
      assert (L : (60 < List.length h)%nat) by (unfold h; rewrite firstn_length, skipn_length; lia).
      split; [rewrite <- !app_assoc; reflexivity|]. split; [|split; [auto|split]].
      * rewrite !in_app_iff, dots1, dots2. cbn [In]. intros [I|[I|I]]; [lia| |lia]. unfold h in I. apply notin_firstn in I; auto. now apply notin_skipn.
      * rewrite dots2. cbn [List.length app]. rewrite app_length. lia.
      * rewrite dots2. change (nth_error ([32; 46; 46; 46; 32] ++ h ++ lit " ...") 65) with (nth_error (h ++ lit " ...") 60). rewrite nth_error_app1 by lia. unfold h. rewrite nth_firstn by lia. rewrite nth_skipn. rewrite <- Hc. f_equal. lia.
Qed.
