(* Proofs about array iterators. *)
From Coq Require Import FinFun.
From Verif Require Import Base ShapeToolsModel IterModel IterSpec.
Local Open Scope Z_scope.

(* ---- the specification makes sense ---- *)

Lemma upto_length n : 0 <= n -> Z.of_nat (List.length (upto n)) = n.
Proof. intros; unfold upto; rewrite map_length, seq_length; lia. Qed.

Lemma upto_In n i : In i (upto n) <-> 0 <= i < n.
Proof.
  unfold upto; rewrite in_map_iff; split.
  - intros (k & <- & Hk); apply in_seq in Hk; lia.
  - intros H; exists (Z.to_nat i); rewrite in_seq; lia.
Qed.

Lemma upto_NoDup n : NoDup (upto n).
Proof.
  unfold upto; apply Injective_map_NoDup; [ | apply seq_NoDup ].
  intros a b; lia.
Qed.

Lemma row_major_In shape idx : In idx (row_major shape) <-> in_shape idx shape.
Proof.
  revert idx; induction shape as [ | n sh IH ]; intros idx; cbn [row_major].
  - split; [ intros [ <- | [] ]; constructor | intros H; inversion H; left; reflexivity ].
  - rewrite in_flat_map; split.
    + intros (i & Hi & H); apply in_map_iff in H as (r & <- & Hr).
      constructor; [ apply upto_In; exact Hi | apply IH; exact Hr ].
    + intros H; inversion H as [ | i ? r ? Hi Hr ]; subst.
      exists i; split; [ apply upto_In; exact Hi | ].
      apply in_map; apply IH; exact Hr.
Qed.

Lemma NoDup_app {A} (a b : list A) :
  NoDup a -> NoDup b -> (forall x, In x a -> ~ In x b) -> NoDup (a ++ b).
Proof.
  intros Ha Hb D; induction Ha as [ | x a Hx Ha IH ]; [ exact Hb | cbn ].
  constructor.
  - rewrite in_app_iff; intros [ H | H ]; [ contradiction | ].
    apply (D x); [ left; reflexivity | exact H ].
  - apply IH; intros y Hy; apply D; right; exact Hy.
Qed.

Lemma NoDup_flat_map {A B} (f : A -> list B) (l : list A) :
  NoDup l -> (forall x, NoDup (f x)) ->
  (forall x y b, In b (f x) -> In b (f y) -> x = y) -> NoDup (flat_map f l).
Proof.
  intros Hl Hf Hd; induction Hl as [ | x l Hx Hl IH ]; cbn; [ constructor | ].
  apply NoDup_app; [ apply Hf | exact IH | ].
  intros b Hb Hb'; apply in_flat_map in Hb' as (y & Hy & Hb'').
  apply Hx; rewrite (Hd x y b Hb Hb''); exact Hy.
Qed.

Lemma row_major_NoDup shape : NoDup (row_major shape).
Proof.
  induction shape as [ | n sh IH ]; cbn [row_major]; [ repeat constructor; intros [] | ].
  apply NoDup_flat_map; [ apply upto_NoDup | | ].
  - intros x; apply Injective_map_NoDup; [ intros a b H; congruence | exact IH ].
  - intros x y b Hx Hy; apply in_map_iff in Hx as (r & <- & _); apply in_map_iff in Hy as (r' & E & _); congruence.
Qed.

Lemma row_major_length shape :
  Forall (fun n => 0 <= n) shape -> Z.of_nat (List.length (row_major shape)) = product shape.
Proof.
  induction 1 as [ | n sh Hn Hs IH ]; [ reflexivity | ].
  cbn [row_major product fold_right]; fold (product sh).
  assert (G : forall l, Z.of_nat (List.length (flat_map (fun i => map (cons i) (row_major sh)) l))
                        = Z.of_nat (List.length l) * product sh).
  { induction l as [ | i l IHl ]; [ reflexivity | ].
    cbn [flat_map]; rewrite app_length, map_length; cbn [List.length]; nia. }
  rewrite G, upto_length by lia; reflexivity.
Qed.

(* ---- enumerating indices ---- *)

(* l lists a and all that follows it under nxt, ending where nxt stops *)
Inductive chain {A} (nxt : A -> option A) : A -> list A -> Prop :=
| ch_last a : nxt a = None -> chain nxt a [a]
| ch_step a b l : nxt a = Some b -> chain nxt b l -> chain nxt a (a :: l).

(* the step of next() with the outermost dimension first *)
Fixpoint step (sh idx : list Z) : option (list Z) :=
  match idx, sh with
  | i :: idx', n :: sh' =>
      match step sh' idx' with
      | Some r => Some (i :: r)
      | None => if i + 1 =? n then None else Some ((i + 1) :: zeros (List.length sh'))
      end
  | _, _ => None
  end.

Lemma chain_under n sh i a l m :
  chain (step sh) a l ->
  (i + 1 = n /\ m = [] \/
   i + 1 <> n /\ chain (step (n :: sh)) ((i + 1) :: zeros (List.length sh)) m) ->
  chain (step (n :: sh)) (i :: a) (map (cons i) l ++ m).
Proof.
  intros H Hm; induction H as [ a E | a b l E H IH ].
  - cbn [map app]. destruct Hm as [ (En & ->) | (En & Hm) ].
    + apply ch_last; cbn [step]; rewrite E, (proj2 (Z.eqb_eq _ _) En); reflexivity.
    + eapply ch_step; [ | exact Hm ].
      cbn [step]; rewrite E, (proj2 (Z.eqb_neq _ _) En); reflexivity.
  - cbn [map app]; eapply ch_step; [ | exact IH ].
    cbn [step]; rewrite E; reflexivity.
Qed.

Lemma row_major_chain sh :
  Forall (fun n => 0 < n) sh -> chain (step sh) (zeros (List.length sh)) (row_major sh).
Proof.
  induction 1 as [ | n sh Hn Hs IH ]; [ apply ch_last; reflexivity | ].
  cbn [row_major List.length]; unfold zeros; cbn [repeat]; fold (zeros (List.length sh)).
  unfold upto.
  assert (G : forall len k, Z.of_nat k + Z.of_nat len = n -> (0 < len)%nat ->
    chain (step (n :: sh)) (Z.of_nat k :: zeros (List.length sh))
      (flat_map (fun i => map (cons i) (row_major sh)) (map Z.of_nat (seq k len)))).
  { induction len as [ | len IHl ]; intros k Hk Hl; [ lia | ].
    cbn [seq map flat_map].
    apply chain_under; [ exact IH | ].
    destruct len as [ | len ].
    - left; split; [ lia | reflexivity ].
    - right; split; [ lia | ].
      replace (Z.of_nat k + 1) with (Z.of_nat (Datatypes.S k)) by lia.
      apply IHl; lia. }
  apply (G (Z.to_nat n) O); lia.
Qed.

(* the step of the code, innermost dimension first *)
Lemma carry_app idx sh i n :
  List.length idx = List.length sh ->
  carry (idx ++ [i]) (sh ++ [n]) =
  match carry idx sh with
  | (Some l, idx') => (Some l, idx' ++ [i])
  | (None, idx') => if i + 1 =? n then (None, idx' ++ [0])
                    else (Some (List.length sh), idx' ++ [i + 1])
  end.
Proof.
  revert sh; induction idx as [ | j idx IH ]; intros [ | m sh ] H; try discriminate H; cbn [app carry].
  - destruct (i + 1 =? n); reflexivity.
  - destruct (j + 1 =? m); [ | reflexivity ].
    injection H as H; rewrite (IH _ H).
    destruct (carry idx sh) as [ [ l | ] idx' ]; [ reflexivity | ].
    destruct (i + 1 =? n); reflexivity.
Qed.

Lemma carry_None_zeros idx sh idx' :
  List.length idx = List.length sh -> carry idx sh = (None, idx') -> idx' = zeros (List.length sh).
Proof.
  revert sh idx'; induction idx as [ | j idx IH ]; intros [ | m sh ] idx' H E; try discriminate H; cbn [carry] in E.
  - injection E as <-; reflexivity.
  - destruct (j + 1 =? m); [ | discriminate E ].
    injection H as H.
    destruct (carry idx sh) as [ [ l | ] r ] eqn:C; cbn in E; [ discriminate E | ].
    injection E as <-; cbn; f_equal; apply (IH _ _ H C).
Qed.

Lemma rev_repeat {A} (x : A) n : rev (repeat x n) = repeat x n.
Proof.
  induction n as [ | n IH ]; [ reflexivity | ].
  cbn [repeat rev]; rewrite IH.
  clear IH; induction n as [ | n IH ]; [ reflexivity | cbn; f_equal; exact IH ].
Qed.

Lemma carry_step idx sh :
  List.length idx = List.length sh ->
  match step sh idx with
  | Some b => exists l, carry (rev idx) (rev sh) = (Some l, rev b) /\ List.length b = List.length sh
  | None => exists r, carry (rev idx) (rev sh) = (None, r)
  end.
Proof.
  revert sh; induction idx as [ | i idx IH ]; intros [ | n sh ] H; try discriminate H.
  - cbn; eexists; reflexivity.
  - injection H as H; cbn [step rev].
    specialize (IH _ H).
    rewrite carry_app by (rewrite !rev_length; exact H).
    destruct (step sh idx) as [ b | ].
    + destruct IH as (l & -> & Hl); exists l; cbn; rewrite Hl; split; reflexivity.
    + destruct IH as (r & E); rewrite E.
      pose proof (carry_None_zeros (rev idx) (rev sh) r) as Z.
      rewrite !rev_length in Z; specialize (Z H E); subst r.
      destruct (i + 1 =? n).
      * eexists; reflexivity.
      * rewrite rev_length; exists (List.length sh); split.
        -- cbn [rev]; unfold zeros; rewrite rev_repeat; reflexivity.
        -- cbn; unfold zeros; rewrite repeat_length; reflexivity.
Qed.

(* ---- iterdata ---- *)

(* the address an operand has for an index (innermost first) *)
Fixpoint addr_of (base : Z) (ridx : list Z) (ids : list idata) {struct ids} : Z :=
  match ids, ridx with
  | IFixed _ s :: ids', i :: ridx' => i * s + addr_of base ridx' ids'
  | _, _ => base
  end.

Fixpoint inv (base : Z) (ridx : list Z) (ids : list idata) {struct ids} : Prop :=
  match ids with
  | [] => ridx = []
  | ITerm od :: _ => ridx = [] \/ od = Some base
  | IFixed od s :: ids' =>
      match ridx with
      | [] => False
      | i :: ridx' => od = Some (addr_of base ridx ids) /\ inv base ridx' ids'
      end
  end.

Definition shell (x : idata) : option Z := match x with IFixed _ s => Some s | ITerm _ => None end.

Lemma addr_of_shell base ridx ids ids' :
  map shell ids = map shell ids' -> addr_of base ridx ids = addr_of base ridx ids'.
Proof.
  revert ridx ids'; induction ids as [ | x ids IH ]; intros ridx [ | y ids' ] H; try discriminate H; [ reflexivity | ].
  injection H as H1 H2; destruct x, y; cbn in H1; try discriminate H1; [ | reflexivity ].
  injection H1 as ->; destruct ridx; cbn [addr_of]; [ reflexivity | f_equal; apply IH; exact H2 ].
Qed.

Lemma incr_ok base ids ridx sh l ridx' :
  inv base ridx ids -> carry ridx sh = (Some l, ridx') ->
  exists ids', incr l ids = Ok (addr_of base ridx' ids, ids') /\ inv base ridx' ids' /\
               map shell ids' = map shell ids.
Proof.
  revert ridx sh l ridx'; induction ids as [ | x ids IH ]; intros ridx sh l ridx' HI HC.
  - cbn in HI; subst ridx; cbn in HC; discriminate HC.
  - destruct ridx as [ | i ridx ].
    { cbn in HC; discriminate HC. }
    destruct sh as [ | n sh ]; [ cbn in HC; discriminate HC | ].
    cbn [carry] in HC.
    destruct x as [ od s | od ].
    + cbn [inv] in HI; destruct HI as (Hd & HI).
      destruct (i + 1 =? n).
      * destruct (carry ridx sh) as [ [ k | ] r ] eqn:C; cbn in HC; [ | discriminate HC ].
        injection HC as <- <-.
        destruct (IH ridx sh k r HI C) as (ids' & E & I & S).
        exists (IFixed (Some (addr_of base r ids)) s :: ids'); cbn [incr]; rewrite E; cbn [bind].
        split; [ cbn [addr_of]; reflexivity | ].
        split; [ | cbn; f_equal; exact S ].
        cbn [inv addr_of]; split; [ | exact I ].
        rewrite (addr_of_shell base r ids' ids S); f_equal; lia.
      * injection HC as <- <-.
        exists (IFixed (Some (addr_of base (i :: ridx) (IFixed od s :: ids) + s)) s :: ids).
        cbn [incr]; rewrite Hd; cbn [addr_of].
        split; [ f_equal; f_equal; lia | ].
        split; [ | reflexivity ].
        cbn [inv addr_of]; split; [ f_equal; lia | exact HI ].
    + cbn [inv] in HI; destruct HI as [ HI | -> ]; [ discriminate HI | ].
      exists (ITerm (Some base) :: ids); cbn.
      split; [ reflexivity | split; [ right; reflexivity | reflexivity ] ].
Qed.

Definition cok (ridx : list Z) (base : Z) (strs : list (option Z)) (c : cursor) : Prop :=
  inv base ridx (c_ids c) /\ map shell (c_ids c) = strs /\
  c_data c = addr_of base ridx (c_ids c).

Lemma incr_all_ok ridx sh l ridx' bs strs ops :
  carry ridx sh = (Some l, ridx') ->
  Forall2 (fun p c => cok ridx (fst p) (snd p) c) (combine bs strs) ops ->
  List.length bs = List.length strs ->
  exists ops', incr_all l ops = Ok ops' /\
    Forall2 (fun p c => cok ridx' (fst p) (snd p) c) (combine bs strs) ops' /\
    map c_utp ops' = map c_utp ops.
Proof.
  intros HC H HL; remember (combine bs strs) as ps eqn:Eps; clear Eps HL.
  induction H as [ | p c ps ops (I & S & D) H IH ].
  - exists []; repeat split; constructor.
  - destruct (incr_ok (fst p) (c_ids c) ridx sh l ridx' I HC) as (ids' & E & I' & S').
    destruct IH as (ops' & E' & F & U).
    exists (Cursor ids' (addr_of (fst p) ridx' (c_ids c)) (c_utp c) :: ops').
    cbn [incr_all]; rewrite E; cbn [bind]; rewrite E'; cbn [bind].
    split; [ reflexivity | split; [ | cbn; f_equal; exact U ] ].
    constructor; [ | exact F ].
    repeat split; cbn [c_ids c_data]; [ exact I' | congruence | ].
    apply addr_of_shell; congruence.
Qed.

(* the address of an operand, from its base and the strides of its
   dimensions (innermost first; None where it is broadcast) *)
Fixpoint saddr (base : Z) (ridx : list Z) (strs : list (option Z)) {struct strs} : Z :=
  match strs, ridx with
  | Some s :: strs', i :: ridx' => i * s + saddr base ridx' strs'
  | _, _ => base
  end.

Lemma addr_of_saddr base ridx ids : addr_of base ridx ids = saddr base ridx (map shell ids).
Proof.
  revert ridx; induction ids as [ | [ od s | od ] ids IH ]; intros [ | i ridx ]; cbn; try reflexivity.
  rewrite IH; reflexivity.
Qed.

Lemma turns_ok sh ps L : forall idx ops n fuel,
  chain (step sh) idx L -> List.length idx = List.length sh ->
  Forall2 (fun p c => cok (rev idx) (fst p) (snd p) c) ps ops ->
  (List.length L <= fuel)%nat ->
  turns fuel (Iter n (rev idx) (rev sh) ops) =
  Ok (map (fun i => (i, map (fun p => saddr (fst p) (rev i) (snd p)) ps)) L).
Proof.
  assert (HD : forall ri ops, Forall2 (fun p c => cok ri (fst p) (snd p) c) ps ops ->
                map c_data ops = map (fun p => saddr (fst p) ri (snd p)) ps).
  { intros ri ops H; clear L; induction H as [ | p c ps' ops' (I & S & D) H IH ]; [ reflexivity | ].
    cbn; f_equal; [ rewrite D, addr_of_saddr, S; reflexivity | exact IH ]. }
  intros idx ops n fuel C; revert ops n fuel.
  induction C as [ a E | a b l E C IH ]; intros ops n fuel HL HF Hfuel.
  - destruct fuel as [ | fuel ]; [ cbn in Hfuel; lia | ].
    pose proof (carry_step a sh HL) as HS; rewrite E in HS; destruct HS as (r & HS).
    cbn [turns]; unfold next; cbn [it_idx it_shape it_ops it_size]; rewrite HS; cbn [bind map].
    rewrite rev_involutive, (HD _ _ HF); reflexivity.
  - destruct fuel as [ | fuel ]; [ cbn in Hfuel; lia | ].
    pose proof (carry_step a sh HL) as HS; rewrite E in HS; destruct HS as (k & HS & HLb).
    destruct (incr_all_ok (rev a) (rev sh) k (rev b) (map fst ps) (map snd ps) ops HS) as (ops' & EI & HF' & _).
    + replace (combine (map fst ps) (map snd ps)) with ps; [ exact HF | ].
      clear; induction ps as [ | [ x y ] ps IH ]; [ reflexivity | cbn; f_equal; exact IH ].
    + rewrite !map_length; reflexivity.
    + replace (combine (map fst ps) (map snd ps)) with ps in HF'
        by (clear; induction ps as [ | [ x y ] ps IH ]; [ reflexivity | cbn; f_equal; exact IH ]).
      cbn [turns]; unfold next; cbn [it_idx it_shape it_ops it_size]; rewrite HS, EI; cbn [bind].
      rewrite (IH ops' n fuel HLb HF') by (cbn in Hfuel; lia).
      cbn [bind map]; rewrite rev_involutive, (HD _ _ HF); reflexivity.
Qed.

(* ---- setting up ---- *)

Definition strides_of (ds : list dim) : list Z := map (fun d => match d with DF _ s => s | DV => 0 end) ds.
Definition fixed_dims (ds : list dim) : Prop := Forall (fun d => match d with DF n _ => 0 <= n | DV => False end) ds.

Lemma construct_ok ds k :
  fixed_dims ds -> (0 < k <= List.length ds)%nat ->
  construct k ds = Ok (rev (map (IFixed None) (firstn k (strides_of ds)))).
Proof.
  intros H; revert k; induction H as [ | d ds Hd H IH ]; intros k Hk; [ cbn in Hk; lia | ].
  destruct d as [ n s | ]; [ | destruct Hd ].
  destruct k as [ | [ | k ] ]; [ lia | reflexivity | ].
  change (construct (Datatypes.S (Datatypes.S k)) (DF n s :: ds))
    with (do inner <- construct (Datatypes.S k) ds; Ok (inner ++ [IFixed None s])).
  rewrite IH by (cbn in Hk; lia); reflexivity.
Qed.

Lemma reset_ok base strs rest k od :
  (List.length strs < k)%nat -> rest = [ITerm od] ->
  reset base (Z.of_nat k) (map (IFixed None) strs ++ rest)
  = Ok (base, map (IFixed (Some base)) strs ++ [ITerm (Some base)]).
Proof.
  intros Hk ->; revert k Hk; induction strs as [ | s strs IH ]; intros k Hk; cbn [map app reset]; [ reflexivity | ].
  cbn [List.length] in Hk.
  destruct (Z.eqb_spec (Z.of_nat k) 1); [ lia | ].
  replace (Z.of_nat k - 1) with (Z.of_nat (k - 1)) by lia.
  rewrite IH by lia; reflexivity.
Qed.

Lemma reset_full base strs rest :
  (0 < List.length strs)%nat ->
  reset base (Z.of_nat (List.length strs)) (map (IFixed None) strs ++ rest)
  = Ok (base, map (IFixed (Some base)) strs ++ rest).
Proof.
  induction strs as [ | s strs IH ]; intros Hk; [ cbn in Hk; lia | ].
  cbn [map app reset].
  destruct (Z.eqb_spec (Z.of_nat (List.length (s :: strs))) 1) as [ E | E ].
  - destruct strs; [ reflexivity | cbn in E; lia ].
  - replace (Z.of_nat (List.length (s :: strs)) - 1) with (Z.of_nat (List.length strs)) by (cbn [List.length]; lia).
    rewrite IH by (destruct strs; [ cbn in E; lia | cbn; lia ]); reflexivity.
Qed.

Lemma addr_of_zeros base ids k : addr_of base (zeros k) ids = base.
Proof.
  revert k; induction ids as [ | [ od s | od ] ids IH ]; intros [ | k ]; cbn; try reflexivity.
  apply (IH k).
Qed.

Lemma inv_start base strs rest k :
  (rest = [] /\ List.length strs = k \/
   (exists od, rest = [ITerm od] /\ List.length strs = k) \/
   (rest = [ITerm (Some base)] /\ List.length strs <= k))%nat ->
  inv base (zeros k) (map (IFixed (Some base)) strs ++ rest).
Proof.
  revert k; induction strs as [ | s strs IH ]; intros k H; cbn [map app].
  - destruct H as [ (-> & <-) | [ (od & -> & <-) | (-> & _) ] ]; cbn; [ reflexivity | left; reflexivity | right; reflexivity ].
  - destruct k as [ | k ]; [ cbn in H; destruct H as [ (_ & H) | [ (od & _ & H) | (_ & H) ] ]; lia | ].
    unfold zeros; cbn [repeat inv]; fold (zeros k).
    split; [ f_equal; symmetry; apply (addr_of_zeros base (IFixed (Some base) s :: _) (Datatypes.S k)) | ].
    apply IH; cbn in H; destruct H as [ (-> & H) | [ (od & -> & H) | (-> & H) ] ];
      [ left | right; left; exists od | right; right ]; split; try reflexivity; lia.
Qed.

Lemma itersize_fold sh a n :
  fold_left (fun acc m => do x <- acc; mul64 x m) sh (Ok a) = Ok n -> n = a * product sh.
Proof.
  revert a; induction sh as [ | m sh IH ]; intros a H; cbn in H.
  - injection H as <-; unfold product; cbn; lia.
  - change (fold_left (fun acc m => do x <- acc; mul64 x m) sh (if is_s64 (a * m) then Ok (a * m) else UB) = Ok n) in H;
    destruct (is_s64 (a * m)).
    + apply IH in H; rewrite H; unfold product; cbn [fold_right]; lia.
    + exfalso; clear -H; revert H; induction sh as [ | x sh IH ]; cbn; [ discriminate | exact IH ].
Qed.

Lemma itersize_value sh n : itersize sh = Ok n -> n = product sh.
Proof. intros H; apply itersize_fold in H; lia. Qed.

Lemma itersize_ok sh :
  (forall k, s64 (product (firstn k sh))) -> itersize sh = Ok (product sh).
Proof.
  unfold itersize; intros H.
  assert (G : forall sh a, (forall k, s64 (a * product (firstn k sh))) ->
             fold_left (fun acc m => do x <- acc; mul64 x m) sh (Ok a) = Ok (a * product sh)).
  { clear; induction sh as [ | m sh IH ]; intros a H; cbn [fold_left].
    - unfold product; cbn; f_equal; lia.
    - assert (Hm : s64 (a * m)) by (specialize (H 1%nat); cbn in H; rewrite Z.mul_1_r in H; exact H).
      cbn [bind]; unfold mul64; rewrite (chk64_ok _ Hm).
      rewrite IH.
      + unfold product; cbn [fold_right]; f_equal; lia.
      + intros k; specialize (H (Datatypes.S k)); cbn [firstn] in H; unfold product in *; cbn [fold_right] in H.
        rewrite <- Z.mul_assoc; exact H. }
  rewrite G; [ f_equal; lia | ].
  intros k; rewrite Z.mul_1_l; apply H.
Qed.

Lemma product_zero sh : Forall (fun n => 0 <= n) sh -> (product sh = 0 <-> ~ Forall (fun n => 0 < n) sh).
Proof.
  induction 1 as [ | n sh Hn H IH ]; [ unfold product; cbn [fold_right] | unfold product; cbn [fold_right]; fold (product sh) ].
  - split; [ lia | intros G; exfalso; apply G; constructor ].
  - split.
    + intros E G; inversion G; subst.
      apply Z.mul_eq_0 in E as [ E | E ]; [ lia | ].
      apply IH in E; contradiction.
    + intros G; destruct (Z.eq_dec n 0) as [ -> | N ]; [ lia | ].
      rewrite (proj2 IH); [ lia | ].
      intros F; apply G; constructor; [ lia | exact F ].
Qed.

Lemma row_major_empty sh : Forall (fun n => 0 <= n) sh -> product sh = 0 -> row_major sh = [].
Proof.
  intros H E; pose proof (row_major_length sh H) as L; rewrite E in L.
  destruct (row_major sh); [ reflexivity | cbn in L; lia ].
Qed.

Lemma visits_ok sh n ops ps fuel :
  Forall (fun m => 0 <= m) sh -> n = product sh ->
  Forall2 (fun p c => cok (zeros (List.length sh)) (fst p) (snd p) c) ps ops ->
  (Z.to_nat n <= fuel)%nat ->
  visits fuel (Iter n (zeros (List.length sh)) (rev sh) ops) =
  Ok (map (fun i => (i, map (fun p => saddr (fst p) (rev i) (snd p)) ps)) (row_major sh)).
Proof.
  intros Hs -> HF Hfuel; unfold visits, empty; cbn [it_size].
  destruct (Z.eqb_spec (product sh) 0) as [ E | E ].
  - rewrite (row_major_empty sh Hs E); reflexivity.
  - assert (P : Forall (fun m => 0 < m) sh).
    { apply Forall_forall; intros x Hx.
      destruct (Z_lt_le_dec 0 x) as [ | B ]; [ assumption | exfalso ].
      apply E, (product_zero sh Hs); intros F; rewrite Forall_forall in F; specialize (F x Hx); lia. }
    pose proof (row_major_length sh Hs) as L.
    replace (zeros (List.length sh)) with (rev (zeros (List.length sh))) by apply rev_repeat.
    apply turns_ok.
    + apply row_major_chain; exact P.
    + unfold zeros; apply repeat_length.
    + unfold zeros in *; rewrite rev_repeat; exact HF.
    + lia.
Qed.

(* saddr is the address of the specification *)
Lemma dot_app i1 i2 s1 s2 :
  List.length i1 = List.length s1 -> dot (i1 ++ i2) (s1 ++ s2) = dot i1 s1 + dot i2 s2.
Proof.
  revert s1; induction i1 as [ | i i1 IH ]; intros [ | s s1 ] H; try discriminate H; cbn; [ reflexivity | ].
  injection H as H; rewrite (IH _ H); lia.
Qed.

Lemma dot_rev i s : List.length i = List.length s -> dot (rev i) (rev s) = dot i s.
Proof.
  revert s; induction i as [ | x i IH ]; intros [ | y s ] H; try discriminate H; [ reflexivity | ].
  injection H as H; cbn [rev]; rewrite dot_app by (rewrite !rev_length; exact H).
  rewrite (IH _ H); cbn; lia.
Qed.

Lemma saddr_full base ridx strs tl_ :
  List.length ridx = List.length strs ->
  saddr base ridx (map Some strs ++ tl_) = base + dot ridx strs.
Proof.
  revert strs; induction ridx as [ | i ridx IH ]; intros [ | s strs ] H; try discriminate H; cbn [map app saddr dot].
  - destruct tl_ as [ | [ ? | ] ? ]; cbn; lia.
  - injection H as H; rewrite (IH _ H); lia.
Qed.

Lemma saddr_short base ridx strs :
  (List.length strs <= List.length ridx)%nat ->
  saddr base ridx (map Some strs ++ [None]) = base + dot (firstn (List.length strs) ridx) strs.
Proof.
  revert ridx; induction strs as [ | s strs IH ]; intros ridx H; cbn [map app saddr].
  - cbn; lia.
  - destruct ridx as [ | i ridx ]; [ cbn in H; lia | ].
    cbn in H; rewrite IH by lia; cbn; lia.
Qed.

Lemma firstn_rev_skipn {A} (l : list A) n :
  (n <= List.length l)%nat -> firstn n (rev l) = rev (skipn (List.length l - n) l).
Proof. intros H; rewrite firstn_rev; reflexivity. Qed.

Lemma saddr_bcast base idx strs :
  (List.length strs <= List.length idx)%nat ->
  saddr base (rev idx) (map Some (rev strs) ++ [None])
  = address base strs (right_align idx (List.length strs)).
Proof.
  intros H; rewrite saddr_short by (rewrite !rev_length; exact H).
  rewrite rev_length, firstn_rev_skipn by exact H.
  unfold address, right_align; f_equal; apply dot_rev.
  rewrite skipn_length; lia.
Qed.

Lemma saddr_exact base idx strs :
  List.length idx = List.length strs ->
  saddr base (rev idx) (map Some (rev strs)) = address base strs idx.
Proof.
  intros H; rewrite <- (app_nil_r (map Some (rev strs))), saddr_full by (rewrite !rev_length; exact H).
  unfold address; rewrite dot_rev by exact H; reflexivity.
Qed.

Lemma map_shell_fixed v strs : map shell (map (IFixed v) strs) = map Some strs.
Proof. rewrite map_map; reflexivity. Qed.

Lemma shape_of_nonneg ds : fixed_dims ds -> Forall (fun n => 0 <= n) (shape_of ds).
Proof.
  induction 1 as [ | [ n s | ] ds Hd H IH ]; [ constructor | constructor; assumption | destruct Hd ].
Qed.

Lemma Forall_firstn {A} (P : A -> Prop) l k : Forall P l -> Forall P (firstn k l).
Proof. intros H; revert k; induction H; intros [ | k ]; cbn; constructor; auto. Qed.

Lemma row_major_len sh idx : In idx (row_major sh) -> List.length idx = List.length sh.
Proof. intros H; apply row_major_In in H; apply Forall2_length in H; exact H. Qed.

(* ---- the iterator with one operand ---- *)
Theorem init1_visits o nd it fuel :
  let k := if (nd =? 0)%nat then List.length (op_dims o) else nd in
  let sh := firstn k (shape_of (op_dims o)) in
  fixed_dims (op_dims o) -> (k <= List.length (op_dims o))%nat ->
  init1 o nd = Ok it -> (Z.to_nat (product sh) <= fuel)%nat ->
  it_size it = product sh /\
  map c_utp (it_ops it) = [Some (skipn k (op_dims o), op_dtype o)] /\
  visits fuel it =
  Ok (map (fun idx => (idx, [address (op_base o) (firstn k (strides_of (op_dims o))) idx])) (row_major sh)).
Proof.
  intros k sh HF Hk H Hfuel; unfold init1 in H; fold k in H.
  destruct k as [ | k' ] eqn:Ek.
  - injection H as <-; cbn [it_size it_ops map c_utp].
    split; [ reflexivity | split ].
    + assert (E : op_dims o = []).
      { destruct (op_dims o) as [ | x xs ] eqn:Eo; [ reflexivity | exfalso; unfold k in Ek ].
        destruct (Nat.eqb_spec nd 0); [ discriminate Ek | lia ]. }
      rewrite E; reflexivity.
    + cbn in Hfuel. destruct fuel as [ | fuel ]; [ cbn in Hfuel; lia | ].
      unfold sh; cbn [firstn row_major map].
      unfold visits, empty; cbn; unfold address; cbn; rewrite Z.add_0_r; reflexivity.
  - assert (Hpos : (0 < Datatypes.S k' <= List.length (op_dims o))%nat) by lia.
    rewrite (construct_ok _ _ HF Hpos) in H; cbn [bind] in H.
    set (st := firstn (Datatypes.S k') (strides_of (op_dims o))) in *.
    assert (Lst : List.length (rev st) = Datatypes.S k').
    { rewrite rev_length; unfold st; rewrite firstn_length; unfold strides_of; rewrite map_length; lia. }
    rewrite <- map_rev in H.
    pose proof (reset_full (op_base o) (rev st) [] ltac:(lia)) as R.
    rewrite Lst, !app_nil_r in R.
    rewrite R in H; cbn [bind] in H; fold sh in H.
    destruct (itersize sh) as [ n | | | ] eqn:En; cbn [bind] in H; try discriminate H.
    injection H as <-; cbn [it_size it_ops map c_utp].
    pose proof (itersize_value sh n En) as Hn.
    split; [ exact Hn | split; [ reflexivity | ] ].
    assert (Lsh : List.length sh = Datatypes.S k').
    { unfold sh; rewrite firstn_length; unfold shape_of; rewrite map_length; lia. }
    replace (zeros (Datatypes.S k')) with (zeros (List.length sh)) by (rewrite Lsh; reflexivity).
    rewrite (visits_ok sh n _ [(op_base o, map Some (rev st))]).
    + f_equal; apply map_ext_in; intros idx Hidx; cbn [map fst snd]; f_equal; f_equal.
      apply saddr_exact; rewrite (row_major_len _ _ Hidx), Lsh, <- Lst, rev_length; reflexivity.
    + apply Forall_firstn, shape_of_nonneg; exact HF.
    + exact Hn.
    + constructor; [ | constructor ].
      repeat split; cbn [c_ids c_data fst snd].
      * rewrite <- (app_nil_r (map _ _)); apply inv_start; left; split; [ reflexivity | ]; lia.
      * apply map_shell_fixed.
      * rewrite addr_of_zeros; reflexivity.
    + rewrite Hn; exact Hfuel.
Qed.

(* ---- operands with a terminator ---- *)
Lemma bcursor_ok k o :
  fixed_dims (op_dims o) -> (List.length (op_dims o) <= k)%nat -> (0 < k)%nat ->
  (op_dims o = [] -> op_builtin o = true) ->
  exists c, bcursor k o = Ok c /\
    cok (zeros k) (op_base o) (map Some (rev (strides_of (op_dims o))) ++ [None]) c /\
    c_utp c = (match op_dims o with [] => None | _ => Some ([], op_dtype o) end).
Proof.
  intros HF Hk Hpos HB; unfold bcursor, bconstruct.
  destruct (op_dims o) as [ | d ds ] eqn:Ed.
  - rewrite (HB eq_refl); cbn [bind reset].
    eexists; split; [ reflexivity | split; [ | reflexivity ] ].
    repeat split; cbn; right; reflexivity.
  - rewrite <- Ed in *; set (n := List.length (op_dims o)) in *.
    assert (Hn : (0 < n)%nat) by (unfold n; rewrite Ed; cbn; lia).
    rewrite (construct_ok _ n HF) by (unfold n in *; lia).
    rewrite firstn_all2 by (unfold n, strides_of; rewrite map_length; lia).
    rewrite <- map_rev; cbn [bind].
    set (st := rev (strides_of (op_dims o))).
    assert (Ls : List.length st = n) by (unfold st, strides_of; rewrite rev_length, map_length; reflexivity).
    destruct (Nat.eq_dec n k) as [ E | E ].
    + pose proof (reset_full (op_base o) st [ITerm None] ltac:(lia)) as R.
      rewrite Ls, E in R; rewrite R; cbn [bind].
      eexists; split; [ reflexivity | split; [ | reflexivity ] ].
      repeat split; cbn [c_ids c_data].
      * apply inv_start; right; left; exists None; split; [ reflexivity | ]; lia.
      * rewrite map_app, map_shell_fixed; reflexivity.
      * rewrite addr_of_zeros; reflexivity.
    + pose proof (reset_ok (op_base o) st [ITerm None] k None ltac:(lia) eq_refl) as R.
      rewrite R; cbn [bind].
      eexists; split; [ reflexivity | split; [ | reflexivity ] ].
      repeat split; cbn [c_ids c_data].
      * apply inv_start; right; right; split; [ reflexivity | ]; lia.
      * rewrite map_app, map_shell_fixed; reflexivity.
      * rewrite addr_of_zeros; reflexivity.
Qed.

(* ---- one written and one read operand ---- *)
Theorem init11_visits dst src it fuel :
  let sh := shape_of (op_dims dst) in
  fixed_dims (op_dims dst) -> fixed_dims (op_dims src) ->
  init11 dst src = Ok it -> (Z.to_nat (product sh) <= fuel)%nat ->
  it_size it = product sh /\
  visits fuel it =
  Ok (map (fun idx => (idx, [address (op_base dst) (strides_of (op_dims dst)) idx;
                             address (op_base src) (strides_of (op_dims src))
                               (right_align idx (List.length (op_dims src)))])) (row_major sh)).
Proof.
  intros sh HFd HFs H Hfuel; unfold init11 in H; fold sh in H.
  destruct (shape_can_broadcast sh (shape_of (op_dims src))) eqn:EB; cbn [negb] in H; [ | discriminate H ].
  assert (Hle : (List.length (op_dims src) <= List.length (op_dims dst))%nat).
  { unfold shape_can_broadcast in EB; destruct (Nat.leb_spec (List.length (shape_of (op_dims src))) (List.length sh)) as [ L | L ];
      [ | discriminate EB ].
    unfold sh, shape_of in L; rewrite !map_length in L; exact L. }
  destruct (List.length (op_dims dst)) as [ | k' ] eqn:Ek.
  - apply length_zero_iff_nil in Ek; assert (Es : op_dims src = []) by (apply length_zero_iff_nil; lia).
    injection H as <-; unfold sh; rewrite Ek, Es; cbn [it_size].
    split; [ reflexivity | ].
    destruct fuel as [ | fuel ]; [ unfold sh in Hfuel; rewrite Ek in Hfuel; cbn in Hfuel; lia | ].
    unfold visits, empty; cbn; unfold address; cbn; rewrite !Z.add_0_r; reflexivity.
  - rewrite <- Ek in *.
    rewrite (construct_ok _ _ HFd) in H by lia; cbn [bind] in H.
    rewrite firstn_all2 in H by (unfold strides_of; rewrite map_length; lia).
    set (st := strides_of (op_dims dst)) in *.
    assert (Lst : List.length (rev st) = List.length (op_dims dst)) by (unfold st, strides_of; rewrite rev_length, map_length; reflexivity).
    rewrite <- map_rev in H.
    pose proof (reset_full (op_base dst) (rev st) [] ltac:(lia)) as R.
    rewrite Lst, !app_nil_r in R; rewrite R in H; cbn [bind] in H.
    destruct (bcursor (List.length (op_dims dst)) src) as [ c | | | ] eqn:Ec; cbn [bind] in H; try discriminate H.
    destruct (itersize sh) as [ n | | | ] eqn:En; cbn [bind] in H; try discriminate H.
    injection H as <-; cbn [it_size].
    pose proof (itersize_value sh n En) as Hn; split; [ exact Hn | ].
    assert (Lsh : List.length sh = List.length (op_dims dst)) by (unfold sh, shape_of; rewrite map_length; reflexivity).
    rewrite <- Lsh.
    assert (HB : op_dims src = [] -> op_builtin src = true).
    { intros E; destruct (op_builtin src) eqn:B; [ reflexivity | exfalso ].
      unfold bcursor, bconstruct in Ec; rewrite E, B in Ec; discriminate Ec. }
    destruct (bcursor_ok (List.length (op_dims dst)) src HFs Hle ltac:(lia) HB) as (c' & Ec' & Cc & _).
    assert (c' = c) by congruence; subst c'.
    rewrite (visits_ok sh n _ [(op_base dst, map Some (rev st)); (op_base src, map Some (rev (strides_of (op_dims src))) ++ [None])]).
    + f_equal; apply map_ext_in; intros idx Hidx; cbn [map fst snd].
      pose proof (row_major_len _ _ Hidx) as Li.
      rewrite saddr_exact by (rewrite Li, Lsh, <- Lst, rev_length; reflexivity).
      rewrite saddr_bcast by (unfold strides_of; rewrite map_length, Li, Lsh; exact Hle).
      unfold strides_of at 2; rewrite map_length; reflexivity.
    + apply shape_of_nonneg; exact HFd.
    + exact Hn.
    + constructor; [ | constructor; [ | constructor ] ].
      * repeat split; cbn [c_ids c_data fst snd].
        -- rewrite <- (app_nil_r (map _ _)); apply inv_start; left; split; [ reflexivity | lia ].
        -- apply map_shell_fixed.
        -- rewrite addr_of_zeros; reflexivity.
      * rewrite Lsh; exact Cc.
    + rewrite Hn; exact Hfuel.
Qed.

(* ---- two read operands ---- *)
Theorem init02_visits a b it fuel sh :
  fixed_dims (op_dims a) -> fixed_dims (op_dims b) ->
  broadcast_input_shapes [shape_of (op_dims a); shape_of (op_dims b)] = Ok sh ->
  Forall (fun n => 0 <= n) sh ->
  (List.length (op_dims a) <= List.length sh)%nat -> (List.length (op_dims b) <= List.length sh)%nat ->
  init02 a b = Ok it -> (Z.to_nat (product sh) <= fuel)%nat ->
  it_size it = product sh /\
  visits fuel it =
  Ok (map (fun idx => (idx, [address (op_base a) (strides_of (op_dims a)) (right_align idx (List.length (op_dims a)));
                             address (op_base b) (strides_of (op_dims b)) (right_align idx (List.length (op_dims b)))]))
       (row_major sh)).
Proof.
  intros HFa HFb HS Hnn La Lb H Hfuel; unfold init02 in H; rewrite HS in H; cbn [bind] in H.
  destruct (List.length sh) as [ | k' ] eqn:Ek.
  - apply length_zero_iff_nil in Ek.
    assert (Ea : op_dims a = []) by (apply length_zero_iff_nil; lia).
    assert (Eb : op_dims b = []) by (apply length_zero_iff_nil; lia).
    injection H as <-; rewrite Ek, Ea, Eb; cbn [it_size].
    split; [ reflexivity | ].
    destruct fuel as [ | fuel ]; [ rewrite Ek in Hfuel; cbn in Hfuel; lia | ].
    unfold visits, empty; cbn; unfold address; cbn; rewrite !Z.add_0_r; reflexivity.
  - rewrite <- Ek in *.
    destruct (bcursor (List.length sh) a) as [ ca | | | ] eqn:Eca; cbn [bind] in H; try discriminate H.
    destruct (bcursor (List.length sh) b) as [ cb | | | ] eqn:Ecb; cbn [bind] in H; try discriminate H.
    destruct (itersize sh) as [ n | | | ] eqn:En; cbn [bind] in H; try discriminate H.
    injection H as <-; cbn [it_size].
    pose proof (itersize_value sh n En) as Hn; split; [ exact Hn | ].
    assert (HB : forall o c, bcursor (List.length sh) o = Ok c -> op_dims o = [] -> op_builtin o = true).
    { intros o c Ec E; destruct (op_builtin o) eqn:B; [ reflexivity | exfalso ].
      unfold bcursor, bconstruct in Ec; rewrite E, B in Ec; discriminate Ec. }
    destruct (bcursor_ok (List.length sh) a HFa La ltac:(lia) (HB a ca Eca)) as (ca' & E1 & C1 & _).
    destruct (bcursor_ok (List.length sh) b HFb Lb ltac:(lia) (HB b cb Ecb)) as (cb' & E2 & C2 & _).
    assert (ca' = ca) by congruence; assert (cb' = cb) by congruence; subst ca' cb'.
    rewrite (visits_ok sh n _ [(op_base a, map Some (rev (strides_of (op_dims a))) ++ [None]);
                               (op_base b, map Some (rev (strides_of (op_dims b))) ++ [None])]).
    + f_equal; apply map_ext_in; intros idx Hidx; cbn [map fst snd].
      pose proof (row_major_len _ _ Hidx) as Li.
      rewrite saddr_bcast by (unfold strides_of; rewrite map_length, Li; exact La).
      rewrite saddr_bcast by (unfold strides_of; rewrite map_length, Li; exact Lb).
      unfold strides_of at 2 4; rewrite !map_length; reflexivity.
    + exact Hnn.
    + exact Hn.
    + constructor; [ exact C1 | constructor; [ exact C2 | constructor ] ].
    + rewrite Hn; exact Hfuel.
Qed.
