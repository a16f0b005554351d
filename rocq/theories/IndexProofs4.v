(** One more index in front: dimensions and pointers. *)
From Verif Require Import Base LinearIndexModel LinearIndexSpec LinearIndexProofs LayoutModel LayoutSpec LayoutProofs LayoutProofs2 LayoutProofs5 IndexModel IndexSpec IndexProofs IndexProofs2 IndexProofs3.
Open Scope Z_scope.

Lemma sli_index_total r n : 0 <= n < 2 ^ 63 -> idx64 r -> r_step r = 0 -> (exists s, apply_single_linear_index r n = Ok s) \/ apply_single_linear_index r n = Throw "index_out_of_bounds".
Proof.
  intros N (I1 & I2 & I3) Z0. destruct r as [a b k]. cbn [r_start r_finish r_step] in *. subst k. assert (Sn : s64 n) by (unfold s64; lia).
  destruct (single_index_cases n a b (proj1 N) Sn I1) as (C1 & C2 & C3). destruct (Z.lt_ge_cases a (- n)); [right; apply C3; lia|]. destruct (Z.lt_ge_cases a 0); [left; eexists; apply C2; lia|]. destruct (Z.lt_ge_cases a n); [left; eexists; apply C1; lia|right; apply C3; lia].
Qed.
Lemma out_same m m1 out k t a : tmeta t < W -> same_outside m m1 out k -> disjoint out k a (tmeta t) -> wsame m m1 t a a.
Proof. intros B O D. apply wsame_agree; auto. intros x X. apply O. unfold disjoint in D. lia. Qed.
Lemma same_trans m m1 m2 out k : same_outside m m1 out k -> same_outside m1 m2 out k -> same_outside m m2 out k.
Proof. intros A B x X. rewrite B, A; auto. Qed.
Lemma same_sub m m1 out k out' k' : same_outside m m1 out' k' -> out <= out' -> out' + k' <= out + k -> same_outside m m1 out k.
Proof. intros A B C x X. apply A. lia. Qed.
Lemma no_index r idx m dm t a d n i e b c : dim_of m dm t a d = Some n -> r_step r = 0 -> at_index (r_start r) n i -> item m dm t a d i = Some (e, b, c) ->
  (forall p' p, ~ selects m dm e b c idx p' p) -> forall p' p, ~ selects m dm t a d (r :: idx) p' p.
Proof.
  intros D R A I H p' p S. inversion S as [|? ? ? ? ? n0 i0 e0 b0 c0 ? q D0 R0 A0 I0 S0|]; subst; [|contradiction]. rewrite D in D0. injection D0 as <-. destruct A as (A & _), A0 as (A0 & _). subst i i0. rewrite I in I0. injection I0 as <- <- <-. eapply H. exact S0.
Qed.
Lemma VV_at idx m dm t a d d1 m' rt out : VV idx m dm t a d m' rt out d1 -> forall d2, d1 = d2 -> VV idx m dm t a d m' rt out d2.
Proof. intros V d2 <-. exact V. Qed.
Lemma call_none idx dm : good idx dm -> forall t a rt out emb m, dims64 t -> tmeta t < W -> tmeta rt < W -> disjoint out (tmeta rt) a (tmeta t) -> supported idx t false -> index_type idx t false = Ok rt ->
  exists m' off, call dm idx t a rt out emb None m = Ok (m', off, None) /\ same_outside m m' out (tmeta rt) /\ forall d, VV idx m dm t a d m' rt out (d + off).
Proof.
  intros G t a rt out emb m D B BR DJ S E. pose proof (call_ok idx dm G t a rt out emb m None D B BR DJ S E) as H. destruct (call dm idx t a rt out emb None m) as [((m', off), l)|s| |]; cbn in H; try contradiction.
  - destruct H as (O & -> & V). eauto.
  - destruct H as (_ & ? & ? & _). discriminate.
Qed.
(** A plain index: what is left to do for the item, whatever held it. *)
Lemma remove_ok r idx dm t a n i e b rt out emb m lead off : good idx dm -> dims64 e -> tmeta e < W -> tmeta rt < W -> disjoint out (tmeta rt) b (tmeta e) -> supported idx e (is_some lead) -> index_type idx e (is_some lead) = Ok rt ->
  r_step r = 0 -> at_index (r_start r) n i -> (forall d, dim_of m dm t a d = Some n) -> (forall d, item m dm t a d i = Some (e, b, d + off)) ->
  result_ok (r :: idx) m dm t a rt out lead
    (if is_builtin e then Ok (m, off, lead)
     else match lead with
          | Some data => index_meta dm idx e b rt out emb (Some (data + off)) m
          | None => do x <- index_meta dm idx e b rt out emb None m; Ok (fst (fst x), off + snd (fst x), None)
          end).
Proof.
  intros G D B BR DJ S E R A Hn Hi. destruct (is_builtin e) eqn:Be.
  - destruct (builtin_type _ _ _ _ Be E) as (-> & ->). split; [intros x _; reflexivity|]. assert (V : forall d, VV [] m dm e b (d + off) m e out (d + off)) by (intros d; apply VV_nil; destruct e; try discriminate; constructor).
    destruct lead as [data|].
    + exists data. split; [reflexivity|]. eapply VV_index; eauto.
    + split; [reflexivity|]. intros d. eapply VV_index; eauto.
  - destruct lead as [data|].
    + pose proof (G e b rt out emb m (Some (data + off)) D B BR DJ S E Be) as H. destruct (index_meta dm idx e b rt out emb (Some (data + off)) m) as [((m', o), l)|s| |]; cbn in H; try contradiction; cbn.
      * destruct H as (O & d' & -> & V). split; [exact O|]. exists d'. split; [reflexivity|]. eapply VV_index; eauto.
      * destruct H as (-> & d' & Ed & V). injection Ed as <-. split; [reflexivity|]. exists data. split; [reflexivity|]. eapply no_index; eauto.
    + pose proof (G e b rt out emb m None D B BR DJ S E Be) as H. destruct (index_meta dm idx e b rt out emb None m) as [((m', o), l)|s| |]; cbn in H; try contradiction; cbn.
      * destruct H as (O & -> & V). split; [exact O|]. split; [reflexivity|]. intros d. eapply VV_index; eauto. eapply VV_at; [apply V|]. lia.
      * destruct H as (_ & d' & Ed & _). discriminate.
Qed.
Lemma if_call {B} dm idx e a rt out emb m (k : iout -> outcome B) (y : outcome B) : (is_builtin e = true -> y = k (m, 0, None)) ->
  (if is_builtin e then y else bind (index_meta dm idx e a rt out emb None m) k) = bind (call dm idx e a rt out emb None m) k.
Proof. unfold call. destruct (is_builtin e); intros H; [rewrite H by reflexivity; reflexivity|reflexivity]. Qed.

Lemma fixed_ok r idx dm n e : good idx dm -> idx64 r -> forall a rt out emb m lead, dims64 (FixedDim n e) -> tmeta (FixedDim n e) < W -> tmeta rt < W -> disjoint out (tmeta rt) a (tmeta (FixedDim n e)) ->
  supported (r :: idx) (FixedDim n e) (is_some lead) -> index_type (r :: idx) (FixedDim n e) (is_some lead) = Ok rt ->
  result_ok (r :: idx) m dm (FixedDim n e) a rt out lead (index_meta dm (r :: idx) (FixedDim n e) a rt out emb lead m).
Proof.
  intros G I a rt out emb m lead (N & De) B BR DJ S E. cbn [supported index_type index_meta tmeta] in *. pose proof (tmeta_pos e). apply bind_ok in E as (s & Es & E). rewrite Es. cbn [bind].
  destruct (Z.eqb_spec (r_step r) 0) as [R|R].
  - destruct (sli_index r n s N I R Es) as (Rm & A). rewrite Rm in E |- *. apply (remove_ok r idx dm (FixedDim n e) a n (o_start s) e (a + 16)); auto; [lia|unfold disjoint in *; lia|].
    intros d. cbn [item]. destruct A as (_ & A). destruct (Z.leb_spec 0 (o_start s)); [|lia]. destruct (Z.ltb_spec (o_start s) n); [|lia]. cbn [andb]. do 2 f_equal. lia.
  - destruct (sli_slice r n s N I R Es) as (Rm & SZ & IN & BD). rewrite Rm in E |- *. apply bind_ok in E as (re & Ee & E). injection E as <-. cbn [tmeta] in *. pose proof (tmeta_pos re).
    set (m1 := st (st m (out + 8) (m (a + 8) * o_stride s)) out (o_size s)). set (off := m (a + 8) * o_start s).
    assert (O1 : same_outside m m1 out 16) by (intros x X; unfold m1; rewrite !st_other by lia; reflexivity).
    destruct (call_none idx dm G e (a + 16) re (out + 16) emb m1 De ltac:(lia) ltac:(lia) ltac:(unfold disjoint in *; lia) S Ee) as (m' & io & Ec & O2 & V).
    rewrite (if_call dm idx e (a + 16) re (out + 16) emb m1 (fun x => Ok (fst (fst x), off + snd (fst x), lead)) (Ok (m1, off, lead))) by (intros _; cbn; rewrite Z.add_0_r; reflexivity). rewrite Ec. cbn [bind fst snd].
    assert (O : same_outside m m' out (16 + tmeta re)) by (eapply same_trans; [eapply same_sub; [exact O1| |]|eapply same_sub; [exact O2| |]]; lia).
    assert (M8 : m' (out + 8) = m (a + 8) * o_stride s) by (rewrite O2 by lia; unfold m1; rewrite st_other by lia; apply st_same).
    assert (VA : forall d, VV (r :: idx) m dm (FixedDim n e) a d m' (FixedDim (o_size s) re) out (d + (off + io))).
    { intros d. apply (VV_slice r idx m dm (FixedDim n e) a d m' (FixedDim (o_size s) re) out _ n); auto.
      - intros j i Ij. apply IN in Ij as (J & ->). specialize (BD j J). exists e, (a + 16), (d + (o_start s + j * o_stride s) * m (a + 8)), re, (out + 16), (d + (off + io) + j * m' (out + 8)). cbn [item].
        destruct (Z.leb_spec 0 (o_start s + j * o_stride s)); [|lia]. destruct (Z.ltb_spec (o_start s + j * o_stride s) n); [|lia]. destruct (Z.leb_spec 0 j); [|lia]. destruct (Z.ltb_spec j (o_size s)); [|lia]. cbn [andb]. split; [reflexivity|]. split; [reflexivity|].
        eapply VV_at; [eapply VV_same; [|apply wsame_refl|apply V]|].
        + eapply out_same; [lia|exact O1|unfold disjoint in *; lia].
        + rewrite M8. unfold off. ring.
      - intros j x Ij. cbn [item] in Ij. destruct (Z.leb_spec 0 j); [|discriminate]. destruct (Z.ltb_spec j (o_size s)); [|discriminate]. eexists. apply IN. split; [lia|reflexivity]. }
    split; [exact O|]. destruct lead as [data|].
    + exists data. split; [reflexivity|]. apply VA.
    + split; [reflexivity|]. exact VA.
Qed.
(** A full slice of a ragged dimension, and a pointer: the offset found for the element is
    added to that in the arrmeta. *)
Lemma var_keep r idx dm e : good idx dm -> good_data dm -> full r -> forall a rt out emb m, dims64 (VarDim e) -> tmeta (VarDim e) < W -> tmeta rt < W -> disjoint out (tmeta rt) a (tmeta (VarDim e)) ->
  supported idx e false -> (do e' <- index_type idx e false; Ok (VarDim e')) = Ok rt -> forall (lead : option Z),
  let m1 := st (st (st m out (if m a =? 0 then emb else m a)) (out + 8) (m (a + 8))) (out + 16) (m (a + 16)) in
  exists m', (if is_builtin e then Ok (m1, 0, lead)
              else match rt with
                   | VarDim re => do x <- index_meta dm idx e (a + 24) re (out + 24) emb None m1;
                                  Ok (st (fst (fst x)) (out + 16) (fst (fst x) (out + 16) + snd (fst x)), 0, lead)
                   | _ => UB
                   end) = Ok (m', 0, lead) /\ same_outside m m' out (tmeta rt) /\ forall d, VV (r :: idx) m dm (VarDim e) a d m' rt out d.
Proof.
  intros G GD F a rt out emb m De B BR DJ S E lead m1. cbn [tmeta dims64] in *. pose proof (tmeta_pos e). apply bind_ok in E as (re & Ee & E). injection E as <-. cbn [tmeta] in *. pose proof (tmeta_pos re).
  assert (O1 : same_outside m m1 out 24) by (intros x X; unfold m1; rewrite !st_other by lia; reflexivity).
  destruct (call_none idx dm G e (a + 24) re (out + 24) emb m1 De ltac:(lia) ltac:(lia) ltac:(unfold disjoint in *; lia) S Ee) as (m' & io & Ec & O2 & V).
  exists (if is_builtin e then m' else st m' (out + 16) (m' (out + 16) + io)). split.
  { unfold call in Ec. destruct (is_builtin e); [injection Ec as -> _; reflexivity|]. fold m1. rewrite Ec. reflexivity. }
  set (m2 := if is_builtin e then m' else st m' (out + 16) (m' (out + 16) + io)).
  assert (IO : is_builtin e = true -> io = 0) by (intros X; unfold call in Ec; rewrite X in Ec; injection Ec as _ <-; reflexivity).
  assert (O3 : forall x, x <> out + 16 -> m2 x = m' x) by (unfold m2; intros x X; destruct (is_builtin e); [reflexivity|apply st_other; exact X]).
  assert (M16 : m2 (out + 16) = m (a + 16) + io).
  { assert (X : m' (out + 16) = m (a + 16)).
    { rewrite O2 by lia. unfold m1. rewrite st_same. reflexivity. }
    unfold m2. destruct (is_builtin e) eqn:Be; [rewrite IO by reflexivity; lia|]. rewrite st_same. lia. }
  assert (M8 : m2 (out + 8) = m (a + 8)).
  { rewrite O3 by lia. rewrite O2 by lia. unfold m1. rewrite st_other by lia. apply st_same. }
  clearbody m2. split.
  - intros x X. rewrite O3 by lia. rewrite O2 by lia. apply O1. lia.
  - intros d. assert (N : 0 <= dm (d + 8) < 2 ^ 63) by apply GD. assert (R : r_step r <> 0) by (destruct F as (_ & _ & ->); lia). apply (VV_slice r idx m dm (VarDim e) a d m2 (VarDim re) out d (dm (d + 8))); auto.
    + intros j i Ij. apply in_slice_full in Ij as (-> & J); auto. exists e, (a + 24), (dm d + m (a + 16) + j * m (a + 8)), re, (out + 24), (dm d + m2 (out + 16) + j * m2 (out + 8)). cbn [item]. destruct (Z.leb_spec 0 j); [|lia]. destruct (Z.ltb_spec j (dm (d + 8))); [|lia]. cbn [andb]. split; [reflexivity|]. split; [reflexivity|].
      eapply VV_at; [eapply VV_same; [| |apply V]|].
      * eapply out_same; [lia|exact O1|unfold disjoint in *; lia].
      * apply wsame_agree; [lia|]. intros x X. apply O3. lia.
      * rewrite M8, M16. ring.
    + intros j x Ij. cbn [item] in Ij. destruct (Z.leb_spec 0 j); [|discriminate]. destruct (Z.ltb_spec j (dm (d + 8))); [|discriminate]. exists j. apply in_slice_full; auto.
Qed.
Lemma var_ok r idx dm e : good idx dm -> good_data dm -> idx64 r -> forall a rt out emb m lead, dims64 (VarDim e) -> tmeta (VarDim e) < W -> tmeta rt < W -> disjoint out (tmeta rt) a (tmeta (VarDim e)) ->
  supported (r :: idx) (VarDim e) (is_some lead) -> index_type (r :: idx) (VarDim e) (is_some lead) = Ok rt ->
  result_ok (r :: idx) m dm (VarDim e) a rt out lead (index_meta dm (r :: idx) (VarDim e) a rt out emb lead m).
Proof.
  intros G GD I a rt out emb m lead De B BR DJ S E. cbn [supported index_type index_meta] in *.
  destruct (Z.eqb_spec (r_step r) 0) as [R|R].
  - destruct S as (L & S). destruct lead as [data|]; [|discriminate]. cbn [is_some] in *. cbn [tmeta dims64] in *. pose proof (tmeta_pos e). assert (N : 0 <= dm (data + 8) < 2 ^ 63) by apply GD.
    destruct (sli_index_total r _ N I R) as [(s & Es)|Es]; rewrite Es; cbn [bind].
    + destruct (sli_index r _ s N I R Es) as (Rm & A). rewrite Rm. set (d1 := dm data + m (a + 16) + o_start s * m (a + 8)).
      assert (It : item m dm (VarDim e) a data (o_start s) = Some (e, a + 24, d1)).
      { cbn [item]. destruct A as (_ & A). destruct (Z.leb_spec 0 (o_start s)); [|lia]. destruct (Z.ltb_spec (o_start s) (dm (data + 8))); [|lia]. reflexivity. }
      pose proof (call_ok idx dm G e (a + 24) rt out emb m (Some d1) De ltac:(lia) BR ltac:(unfold disjoint in *; lia) S E) as H1. unfold call in H1.
      destruct (if is_builtin e then _ else _) as [((m', o), l)|z| |]; cbn in H1 |- *; try contradiction.
      * destruct H1 as (O & d' & -> & V). split; [exact O|]. exists d'. split; [reflexivity|]. eapply VV_index; eauto. reflexivity.
      * destruct H1 as (-> & d' & Ed & V). injection Ed as <-. split; [reflexivity|]. exists data. split; [reflexivity|]. eapply no_index; eauto. reflexivity.
    + cbn. split; [reflexivity|].
      exists data. split; [reflexivity|]. intros p' p Sel. inversion Sel as [|? ? ? ? ? n0 i0 e0 b0 c0 ? q D0 R0 A0 I0 S0|]; subst; [|contradiction]. cbn [dim_of] in D0. injection D0 as <-. destruct (sli_index_ok r _ _ N I R A0) as (s1 & E1 & _). rewrite E1 in Es. discriminate.
  - destruct (is_nop r) eqn:F; [|discriminate]. apply nop_full in F. destruct (var_keep r idx dm e G GD F a rt out emb m De B BR DJ S E lead) as (m' & Em & O & V). destruct lead as [data|].
    + rewrite (sli_full r _ (GD _) F). cbn [bind o_remove]. rewrite Em. split; [exact O|]. exists data. split; [reflexivity|]. rewrite Z.add_0_r. apply V.
    + rewrite Em. split; [exact O|]. split; [reflexivity|]. intros d. rewrite Z.add_0_r. apply V.
Qed.
