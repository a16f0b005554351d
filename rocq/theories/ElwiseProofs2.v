From Verif Require Import Base StridedModel ElwiseModel ElwiseSpec ElwiseProofs.
Open Scope Z_scope.

Lemma stores_app f l1 : forall m l2, stores f m (l1 ++ l2) = bind (stores f m l1) (fun m => stores f m l2).
Proof.
  induction l1 as [|(d, x) l1 IH]; intros m l2; [reflexivity|]. cbn [stores app].
  destruct (f x); cbn [bind]; try reflexivity. destruct (st m d a); cbn [bind]; try reflexivity. apply IH.
Qed.
Lemma stores_part ro f l : forall m m', part_of ro m -> Forall (fun p => ro (fst p) = None) l -> stores f m l = Ok m' -> part_of ro m'.
Proof.
  induction l as [|(d, x) l IH]; intros m m' P F E; [injection E as <-; exact P|]. cbn [stores] in E.
  destruct (f x) as [v| | |]; try discriminate. cbn [bind] in E. unfold st in E. destruct (m d); [|discriminate]. cbn [bind] in E.
  inversion F; subst. apply (IH (upd m d v) m'); [|assumption|exact E].
  intros a w Ea. unfold upd. destruct (Z.eqb_spec a d) as [->|]; [cbn in H1; congruence|]. apply P, Ea.
Qed.

Definition shift (i : Z) (ps ss : list Z) : list Z := map (fun p => fst p + i * snd p) (combine ps ss).
Lemma shift_advance ps ss i : List.length ps = List.length ss -> advance (shift i ps ss) ss = shift (i + 1) ps ss.
Proof.
  revert ss. induction ps as [|p ps IH]; intros [|s ss] L; try discriminate; [reflexivity|]. injection L as L.
  unfold shift, advance in *. cbn [combine map fst snd]. f_equal; [lia|apply IH, L].
Qed.
Lemma shift_0 ps ss : List.length ps = List.length ss -> shift 0 ps ss = ps.
Proof.
  revert ss. induction ps as [|p ps IH]; intros [|s ss] L; try discriminate; [reflexivity|]. injection L as L.
  unfold shift in *. cbn [combine map fst snd]. f_equal; [lia|apply IH, L].
Qed.

Lemma loop_stores ro f (k : single_t) dp ds ps ss (P : nat -> list (Z * list Z)) n : List.length ps = List.length ss ->
  forall i0 m,
  (forall i m, (i0 <= i < i0 + n)%nat -> part_of ro m -> k m (dp + Z.of_nat i * ds) (shift (Z.of_nat i) ps ss) = stores f m (P i)) ->
  (forall i, (i0 <= i < i0 + n)%nat -> Forall (fun p => ro (fst p) = None) (P i)) -> part_of ro m ->
  base_strided k m (dp + Z.of_nat i0 * ds) ds (shift (Z.of_nat i0) ps ss) ss n = stores f m (flat_map P (seq i0 n)).
Proof.
  intros L. induction n as [|n IH]; intros i0 m H F Pm; [reflexivity|].
  cbn [base_strided seq flat_map]. rewrite H by (assumption || lia). rewrite stores_app.
  destruct (stores f m (P i0)) as [m1| | |] eqn:E; cbn [bind]; try reflexivity.
  replace (dp + Z.of_nat i0 * ds + ds) with (dp + Z.of_nat (S i0) * ds) by lia.
  rewrite shift_advance by exact L. replace (Z.of_nat i0 + 1) with (Z.of_nat (S i0)) by lia.
  apply IH; [intros i m2 Hi; apply H; lia|intros i Hi; apply F; lia|].
  eapply stores_part; [exact Pm|apply (F i0); lia|exact E].
Qed.

Definition ones (t : ty) : Prop := Forall (eq (DF 1)) t.
(** The arrmeta as the kernels walk it: a dimension of extent 1 is skipped
    without skipping its arrmeta. *)
Fixpoint effmeta (t : ty) (sm : list Z) : list Z :=
  match t with
  | [] => []
  | DF k :: t => if k =? 1 then 1 :: 0 :: effmeta t sm else match sm with w0 :: w1 :: sm => w0 :: w1 :: effmeta t sm | _ => [] end
  | DV :: t => match sm with w0 :: w1 :: w2 :: sm => w0 :: w1 :: w2 :: effmeta t sm | _ => [] end
  end.
Fixpoint fits (t : ty) (sm : list Z) : Prop :=
  match t with
  | [] => True
  | DF k :: t => if k =? 1 then fits t sm else match sm with _ :: _ :: sm => fits t sm | _ => False end
  | DV :: t => match sm with _ :: _ :: _ :: sm => fits t sm | _ => False end
  end.
Lemma ones_eff t : ones t -> forall sm sm', effmeta t sm = effmeta t sm' /\ fits t sm.
Proof. induction 1 as [|d t <- O IH]; intros sm sm'; cbn; [auto|]. destruct (IH sm sm') as (-> & F). auto. Qed.

(** One argument: its type, its arrmeta, and the arrmeta pointer of the kernel. *)
Record garg := G { gt : ty; gmt : list Z; gsm : ameta }.
Definition ready (g : garg) : Prop := exists sm, gsm g = Some sm /\ fits (gt g) sm /\ gmt g = effmeta (gt g) sm.
(** What the code supports at one level, for a node of kind [k]. *)
Definition level_ok (k : nkind) (nd : nat) (t : ty) : Prop :=
  (List.length t <= nd)%nat /\
  if arg_lead nd t then is_var t = false
  else match t with
       | DF n :: t' => k = FV -> n <> 1 -> ones t'
       | _ => True
       end.

Definition inst1 (k : nkind) (b v : bool) (sm : ameta) : outcome (Z * Z * ameta) :=
  if v then do s <- word sm 1; do o <- word sm 2; Ok (s, o, skip sm 3)
  else if b then Ok (0, 0, sm)
  else do s <- word sm 1; Ok (s, 0, skip sm (match k with FF => 2 | _ => 3 end)).
Definition src1 (m : mem) (n s o : Z) (v : bool) (p : Z) : outcome (Z * Z) :=
  if v then
    do b <- ld m p; do sz <- ld m (p + 1);
    if sz =? 1 then Ok (b + o, 0) else if sz =? n then Ok (b + o, s) else Throw "broadcast_error"
  else Ok (p, s).

Lemma ld_part ro m a v : part_of ro m -> ro a = Some v -> ld m a = Ok v.
Proof. intros P E. unfold ld. rewrite (P a v E). reflexivity. Qed.

Lemma arg_step ro k n shape g : (k = FF -> is_var (gt g) = false) -> k <> VF -> level_ok k (S (List.length shape)) (gt g) -> ready g ->
  let nd := S (List.length shape) in
  exists s o g', inst1 k (arg_bc nd (gt g)) (is_var (gt g)) (gsm g) = Ok (s, o, gsm g') /\
    gt g' = arg_elt nd (gt g) /\ ready g' /\
    forall p, conforms ro (gt g) (n :: shape) (gmt g) p ->
      exists p' s', (forall m, part_of ro m -> src1 m n s o (is_var (gt g)) p = Ok (p', s')) /\ (k = FF -> p' = p /\ s' = s) /\
        forall i, 0 <= i < n -> conforms ro (gt g') shape (gmt g') (p' + i * s') /\
          forall idx, locate ro (gt g) (n :: shape) (gmt g) p (i :: idx) = locate ro (gt g') shape (gmt g') (p' + i * s') idx.
Proof.
  destruct g as [t mt sm0]. cbn [gt gmt gsm]. intros KF KV (Lt & OK) (sm & SM & FT & EM). cbn [gt gmt gsm] in *. subst sm0 mt.
  cbn [conforms locate]. change (List.length (n :: shape)) with (S (List.length shape)). set (nd := S (List.length shape)) in *. unfold inst1, arg_bc, arg_size, arg_elt, arg_lead in *.
  destruct (List.length t <? nd)%nat eqn:LE.
  - (* leading dimension missing *)
    rewrite OK. cbn [orb]. exists 0, 0, (G t (effmeta t sm) (Some sm)). cbn [gt gmt gsm]. split; [reflexivity|]. split; [reflexivity|].
    split; [exists sm; auto|].
    intros p C. exists p, 0. split; [reflexivity|]. split; [auto|]. intros i Hi. replace (p + i * 0) with p by lia. auto.
  - apply Nat.ltb_ge in LE. destruct t as [|d t]; [cbn in LE; subst nd; lia|]. cbn [List.length] in Lt. cbn [tl].
    destruct d as [q|]; cbn [is_var dim_size orb].
    + (* fixed *)
      cbn [effmeta fits] in *. destruct (Z.eqb_spec q 1) as [Q|Q].
      * exists 0, 0, (G t (effmeta t sm) (Some sm)). cbn [gt gmt gsm]. split; [reflexivity|]. split; [reflexivity|]. split; [exists sm; auto|].
        intros p (_ & C). exists p, 0. split; [reflexivity|]. split; [auto|]. intros i Hi. specialize (C i Hi). replace (p + i * 0) with (p + 0) by lia. auto.
      * destruct sm as [|w0 [|w1 sm]]; try contradiction. cbn [word nth_error bind skip].
        eexists w1, 0, (G t (effmeta t sm) _). cbn [gt gmt gsm]. split; [reflexivity|]. split; [reflexivity|]. split.
        -- destruct k; [|specialize (OK eq_refl Q)|contradiction].
           ++ exists sm. auto.
           ++ eexists. split; [reflexivity|]. cbn [gt gmt gsm]. split; [apply (ones_eff t OK _ [])|apply (ones_eff t OK)].
        -- intros p (_ & C). exists p, w1. split; [reflexivity|]. split; [auto|]. intros i Hi. specialize (C i Hi). auto.
    + (* var *)
      cbn [effmeta fits] in *. destruct sm as [|w0 [|w1 [|w2 sm]]]; try contradiction. cbn [word nth_error bind skip skipn].
      exists w1, w2, (G t (effmeta t sm) (Some sm)). cbn [gt gmt gsm]. split; [reflexivity|]. split; [reflexivity|]. split; [exists sm; auto|].
      intros p (b & z & Eb & Ez & Hz & C). exists (b + w2), (if z =? 1 then 0 else w1). split; [|split].
      * intros m Pm. unfold src1. rewrite (ld_part _ _ _ _ Pm Eb), (ld_part _ _ _ _ Pm Ez). cbn [bind].
        destruct (Z.eqb_spec z 1); [reflexivity|]. destruct (Z.eqb_spec z n); [reflexivity|]. lia.
      * intros K. specialize (KF K). discriminate.
      * intros i Hi. specialize (C i Hi). rewrite Eb, Ez. destruct (z =? 1); [replace (b + w2 + i * 0) with (b + w2 + 0) by lia|]; auto.
Qed.

Fixpoint insts (k : nkind) (bc var : list bool) (sms : list ameta) : outcome (list Z * list Z * list ameta) :=
  match bc, var, sms with
  | b :: bc, v :: var, sm :: r =>
      do q <- inst1 k b v sm; do p <- insts k bc var r;
      Ok (fst (fst q) :: fst (fst p), snd (fst q) :: snd (fst p), snd q :: snd p)
  | _, _, _ => Ok ([], [], [])
  end.
Lemma insts_fv bc : forall var sms, insts FV bc var sms = inst_fv bc var sms.
Proof. induction bc as [|b bc IH]; intros [|v var] [|sm sms]; try reflexivity. cbn [insts inst_fv]. rewrite IH. destruct v, b; reflexivity. Qed.
Lemma insts_ff bc : forall sms ss so gs, insts FF bc (map (fun _ => false) bc) sms = Ok (ss, so, gs) -> inst_ff bc sms = Ok (ss, gs).
Proof.
  induction bc as [|b bc IH]; intros [|sm sms] ss so gs E; try (cbn in E; injection E as <- <- <-; destruct b; reflexivity).
  - cbn in E. injection E as <- <- <-. reflexivity.
  - cbn in E. injection E as <- <- <-. reflexivity.
  - cbn [insts inst_ff map inst1] in *. destruct b; cbn [bind fst snd] in *.
    + destruct (insts FF bc _ sms) as [((x & y) & z)| | |] eqn:I; try discriminate. cbn [bind fst snd] in E. injection E as <- <- <-.
      rewrite (IH _ _ _ _ I). reflexivity.
    + destruct (word sm 1); try discriminate. cbn [bind fst snd] in *.
      destruct (insts FF bc _ sms) as [((x & y) & z)| | |] eqn:I; try discriminate. cbn [bind fst snd] in E. injection E as <- <- <-.
      rewrite (IH _ _ _ _ I). reflexivity.
Qed.
Lemma fv_srcs_cons m n s ss o so v isv p srcs :
  fv_srcs m n (s :: ss) (o :: so) (v :: isv) (p :: srcs) =
  do q <- src1 m n s o v p; do r <- fv_srcs m n ss so isv srcs; Ok (fst q :: fst r, snd q :: snd r).
Proof. destruct v; reflexivity. Qed.

Definition locs (ro : mem) (shape : list Z) (args : list garg) (ps idx : list Z) : list Z :=
  map (fun q => locate ro (gt (fst q)) shape (gmt (fst q)) (snd q) idx) (combine args ps).
Definition conf (ro : mem) (shape : list Z) (args : list garg) (ps : list Z) : Prop :=
  Forall2 (fun g p => conforms ro (gt g) shape (gmt g) p) args ps.

Lemma level_step ro k n shape args : (k = FF -> Forall (fun g => is_var (gt g) = false) args) -> k <> VF ->
  Forall (fun g => level_ok k (S (List.length shape)) (gt g)) args -> Forall ready args ->
  let nd := S (List.length shape) in
  exists ss so args', insts k (map (arg_bc nd) (map gt args)) (map is_var (map gt args)) (map gsm args) = Ok (ss, so, map gsm args') /\
    map gt args' = map (arg_elt nd) (map gt args) /\ Forall ready args' /\ List.length ss = List.length args /\
    forall ps, conf ro (n :: shape) args ps ->
      exists ps' ss', (forall m, part_of ro m -> fv_srcs m n ss so (map is_var (map gt args)) ps = Ok (ps', ss')) /\
        (k = FF -> ps' = ps /\ ss' = ss) /\ List.length ps' = List.length ss' /\
        forall i, 0 <= i < n -> conf ro shape args' (shift i ps' ss') /\
          forall idx, locs ro (n :: shape) args ps (i :: idx) = locs ro shape args' (shift i ps' ss') idx.
Proof.
  intros KF KV LO RD nd. induction args as [|g args IH].
  - exists [], [], []. split; [reflexivity|]. split; [reflexivity|]. split; [constructor|]. split; [reflexivity|].
    intros ps C. inversion C; subst. exists [], []. split; [reflexivity|]. split; [auto|]. split; [reflexivity|]. intros i Hi. split; [constructor|reflexivity].
  - inversion LO; inversion RD; subst.
    destruct IH as (ss & so & args' & E & ET & R' & LS & H); [intros K; specialize (KF K); inversion KF; assumption|assumption|assumption|].
    destruct (arg_step ro k n shape g) as (s & o & g' & E1 & ET1 & R1 & HH); [intros K; specialize (KF K); inversion KF; assumption|assumption|assumption|assumption|].
    fold nd in E1, ET1. cbn [map]. exists (s :: ss), (o :: so), (g' :: args'). cbn [insts]. rewrite E1. cbn [bind]. rewrite E. cbn [bind fst snd map].
    split; [reflexivity|]. split; [rewrite ET1, ET; reflexivity|]. split; [constructor; assumption|]. split; [cbn; rewrite LS; reflexivity|].
    intros ps C. inversion C as [|g0 p0 args0 ps0 C1 C2 Q1 Q2]; subst. destruct (HH p0 C1) as (p' & s' & A1 & A2 & A3). destruct (H ps0 C2) as (ps' & ss' & B1 & B2 & B3 & B4).
    exists (p' :: ps'), (s' :: ss'). split; [|split; [|split]].
    + intros m Pm. rewrite fv_srcs_cons, (A1 m Pm), (B1 m Pm). reflexivity.
    + intros K. destruct (A2 K) as (-> & ->), (B2 K) as (-> & ->). auto.
    + cbn. rewrite B3. reflexivity.
    + intros i Hi. destruct (A3 i Hi) as (A4 & A5), (B4 i Hi) as (B5 & B6). unfold shift in *. cbn [combine map fst snd]. split; [constructor; assumption|].
      intros idx. unfold locs in *. cbn [combine map fst snd]. rewrite A5, B6. reflexivity.
Qed.

Definition points (shape : list Z) (dp : Z) (dstr : list Z) (xs : list Z -> list Z) : list (Z * list Z) :=
  map (fun idx => (at_ dp dstr idx, xs idx)) (indices shape).
Lemma points_cons n shape dp d dstr xs :
  points (n :: shape) dp (d :: dstr) xs =
  flat_map (fun i => points shape (dp + Z.of_nat i * d) dstr (fun idx => xs (Z.of_nat i :: idx))) (seq 0 (Z.to_nat n)).
Proof.
  unfold points. cbn [indices]. generalize (seq 0 (Z.to_nat n)). induction l as [|i l IH]; [reflexivity|].
  cbn [flat_map]. rewrite map_app, IH, map_map. reflexivity.
Qed.
Lemma in_indices_cons n shape i idx : In (i :: idx) (indices (n :: shape)) <-> 0 <= i < n /\ In idx (indices shape).
Proof.
  cbn [indices]. rewrite in_flat_map. split.
  - intros (j & Hj & I). apply in_map_iff in I. destruct I as (x & [= <- <-] & I). apply in_seq in Hj. split; [lia|exact I].
  - intros (Hi & I). exists (Z.to_nat i). split; [apply in_seq; lia|]. rewrite Z2Nat.id by lia. apply in_map, I.
Qed.

Fixpoint goods (nd : nat) (dst : option ty) (args : list ty) : Prop :=
  match nd with
  | O => True
  | S nd' => classify false dst args <> VF /\ Forall (level_ok (classify false dst args) nd) args /\ goods nd' (res_elt false dst) (map (arg_elt nd) args)
  end.

Lemma classify_ff dst args : classify false dst args = FF -> Forall (fun t => is_var t = false) args.
Proof.
  unfold classify. destruct (forallb (fun t => negb (is_var t)) args) eqn:A.
  - intros _. apply Forall_forall. intros t I. rewrite forallb_forall in A. specialize (A t I). destruct (is_var t); [discriminate|reflexivity].
  - rewrite !andb_false_r. destruct (_ && _); discriminate.
Qed.

Lemma map_false (args : list garg) bc : Forall (fun g => is_var (gt g) = false) args -> List.length bc = List.length args ->
  map is_var (map gt args) = map (fun _ => false) (bc : list bool).
Proof.
  intros F. revert bc. induction F; intros [|b bc] L; try discriminate; [reflexivity|]. cbn [map]. rewrite H, (IHF bc); [reflexivity|]. injection L as L. exact L.
Qed.

Lemma run_spec f al ro : forall shape dst dstr args, List.length dstr = List.length shape ->
  goods (List.length shape) dst (map gt args) -> Forall ready args ->
  exists k, instantiate (gnodes false (List.length shape) dst (map gt args)) (Some (meta shape dstr)) (map gsm args) = Ok k /\
    forall m dp ps xs, part_of ro m -> conf ro shape args ps ->
      (forall idx, In idx (indices shape) -> ro (at_ dp dstr idx) = None) ->
      (forall idx, In idx (indices shape) -> map ro (locs ro shape args ps idx) = map Some (xs idx)) ->
      single f al k m dp ps = stores f m (points shape dp dstr xs).
Proof.
  induction shape as [|n shape IH]; intros dst dstr args LD GO RD.
  - exists KLeaf. split; [reflexivity|]. intros m dp ps xs Pm C D X.
    cbn [single]. unfold points. cbn [indices map]. unfold leaf. cbn [stores].
    assert (E : loads m ps = Ok (xs [])).
    { specialize (X [] (or_introl eq_refl)). unfold locs in X. cbn [locate] in X. revert X. generalize (xs []). clear - C Pm.
      unfold conf in C. cbn [conforms] in C. induction C as [|g p args ps H C IH]; intros x X; cbn in X.
      - destruct x; [reflexivity|discriminate].
      - destruct x as [|v x]; [discriminate|]. injection X as X1 X2. cbn [loads]. rewrite (ld_part _ _ _ _ Pm X1). cbn [bind]. rewrite (IH x X2). reflexivity. }
    rewrite E. cbn [bind]. destruct dstr; [|discriminate]. cbn [at_]. destruct (f (xs [])); cbn [bind]; try reflexivity. destruct (st m dp a); reflexivity.
  - destruct dstr as [|d dstr]; [discriminate|]. injection LD as LD. cbn [List.length gnodes instantiate n_kind n_ignore n_bc n_var].
    cbn [List.length goods] in GO. destruct GO as (KV & LO & GO). rewrite Forall_map in LO. set (k := classify false dst (map gt args)) in *.
    assert (KF : k = FF -> Forall (fun g => is_var (gt g) = false) args).
    { intros K. apply classify_ff in K. rewrite Forall_map in K. exact K. }
    destruct (level_step ro k n shape args KF KV LO RD) as (ss & so & args' & E & ET & R' & LS & H).
    rewrite <- ET in *. destruct (IH (res_elt false dst) dstr args' LD GO R') as (c & EC & HC).
    cbn [meta].
    assert (MAIN : forall m dp ps ps' ss' xs, List.length ps' = List.length ss' -> part_of ro m ->
       (forall i, 0 <= i < n -> conf ro shape args' (shift i ps' ss') /\
          forall idx, locs ro (n :: shape) args ps (i :: idx) = locs ro shape args' (shift i ps' ss') idx) ->
       (forall idx, In idx (indices (n :: shape)) -> ro (at_ dp (d :: dstr) idx) = None) ->
       (forall idx, In idx (indices (n :: shape)) -> map ro (locs ro (n :: shape) args ps idx) = map Some (xs idx)) ->
       base_strided (single f al c) m dp d ps' ss' (Z.to_nat n) = stores f m (points (n :: shape) dp (d :: dstr) xs)).
    { intros m dp ps ps' ss' xs L Pm HI D X. rewrite points_cons.
      rewrite <- (loop_stores ro f (single f al c) dp d ps' ss' (fun i => points shape (dp + Z.of_nat i * d) dstr (fun idx => xs (Z.of_nat i :: idx))) (Z.to_nat n) L 0 m).
      - rewrite shift_0 by exact L. replace (dp + Z.of_nat 0 * d) with dp by lia. reflexivity.
      - intros i m1 Hi Pm1. destruct (HI (Z.of_nat i) ltac:(lia)) as (CF & LC). apply HC; [exact Pm1|exact CF| |].
        + intros idx I. apply (D (Z.of_nat i :: idx)). apply in_indices_cons. split; [lia|exact I].
        + intros idx I. rewrite <- LC. apply X. apply in_indices_cons. split; [lia|exact I].
      - intros i Hi. apply Forall_map. apply Forall_forall. intros idx I. cbn [fst]. apply (D (Z.of_nat i :: idx)). apply in_indices_cons. split; [lia|exact I].
      - exact Pm. }
    destruct k eqn:K; [| |contradiction].
    + cbn [word nth_error bind skip skipn].
      rewrite (map_false args (map (arg_bc (S (List.length shape))) (map gt args)) (KF eq_refl)) in E by (rewrite !map_length; reflexivity).
      apply insts_ff in E. cbn [List.length] in E. rewrite E. cbn [bind fst snd]. rewrite EC. cbn [bind].
      eexists. split; [reflexivity|]. intros m dp ps xs Pm C D X. cbn [single].
      destruct (H ps C) as (ps' & ss' & B1 & B2 & B3 & B4). destruct (B2 eq_refl) as (-> & ->).
      apply (MAIN m dp ps ps ss xs B3 Pm B4 D X).
    + cbn [word nth_error bind skip skipn]. rewrite insts_fv in E. rewrite E. cbn [bind fst snd]. rewrite EC. cbn [bind].
      eexists. split; [reflexivity|]. intros m dp ps xs Pm C D X. cbn [single].
      destruct (H ps C) as (ps' & ss' & B1 & B2 & B3 & B4). rewrite (B1 m Pm). cbn [bind fst snd].
      apply (MAIN m dp ps ps' ss' xs B3 Pm B4 D X).
Qed.
