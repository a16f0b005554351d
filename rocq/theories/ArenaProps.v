(** C29-C31, C53: arenas and file mappings. *)
From Verif Require Import Base ArenaModel ArenaSpec ArenaProofs ArenaProofs2.

(** C29: alloc returns aligned memory inside one live chunk, disjoint from
    everything the user holds, and leaves that untouched (for histories without a
    reset after a failed allocation, see below); ... *)
Theorem C29_alloc_partial : forall zero ds al, 0 <= ds -> In al [1; 2; 4; 8; 16] -> forall s v c ans, reachable zero ds al s v -> okcount ds c ->
  (exists s' p, alloc zero ds al s ans c = Ok (s', Some p) /\ p mod al = 0 /\ (0 < c * ds -> exists b, In b (blocks s') /\ within (p, c * ds) b) /\
     Forall (disjoint (p, c * ds)) (given v) /\ (forall r x, In r (given v) -> inr x r -> mem s' x = mem s x)) \/
  (exists s', alloc zero ds al s ans c = Ok (s', None) /\ mem s' = mem s).
Proof.
  intros zero ds al DS DA s v c ans R C. pose proof (reachable_inv ds al DS DA zero s v R) as I.
  assert (P : forall s' p, Inv al s' (mkview ((p, c * ds) :: given v) (Some (p, c * ds)) (failed v)) -> p mod al = 0 /\ (0 < c * ds -> exists b, In b (blocks s') /\ within (p, c * ds) b)).
  { intros s' p (_ & _ & _ & _ & _ & J & _). inversion J as [|? ? (_ & _ & A & B & _) _]; subst. auto. }
  unfold alloc. destruct zero.
  - destruct (zero_alloc_ok ds al DS DA s v ans c I C) as [(s' & p & E & J & D & M & _)|(s' & E & _ & M)]; [left|right; eauto]. exists s', p. destruct (P s' p J). auto 6.
  - destruct (pod_alloc_ok ds al DS DA s v ans c I C) as [(s' & p & E & J & D & M)|(s' & E & _ & M)]; [left|right; eauto]. exists s', p. destruct (P s' p J). auto 6.
Qed.
Print Assumptions C29_alloc_partial.
(** ... at every moment the regions the user holds are pairwise disjoint and in
    live chunks; ... *)
Theorem C29_held_partial : forall zero ds al, 0 <= ds -> In al [1; 2; 4; 8; 16] -> forall s v, reachable zero ds al s v ->
  ForallOrdPairs disjoint (given v) /\ Forall (fun r => fst r mod al = 0 /\ (0 < snd r -> exists b, In b (blocks s) /\ within r b)) (given v) /\
  (forall b c bl1 bl2 bl3, blocks s = bl1 ++ b :: bl2 ++ c :: bl3 -> disjoint b c).
Proof.
  intros zero ds al DS DA s v R. destruct (reachable_inv ds al DS DA zero s v R) as (_ & I2 & I3 & _ & _ & I6 & I7 & _). split; auto. split.
  - eapply Forall_impl; [|exact I6]. intros r (_ & _ & A & B & _). auto.
  - intros b c bl1 bl2 bl3 E. rewrite E in *. clear - I2 I3. induction bl1 as [|d bl1 IH]; cbn [app alone] in *.
    + destruct I2 as (F & _). inversion I3 as [|? ? (_ & _ & B0 & _) I3']; subst. apply Forall_app in F as (_ & F). inversion F as [|? ? A _]; subst. apply Forall_app in I3' as (_ & I3'). inversion I3' as [|? ? (_ & _ & C0 & _) _]; subst.
      destruct b, c. now apply apart_disjoint.
    + destruct I2 as (_ & I2). inversion I3; subst. auto.
Qed.
Print Assumptions C29_held_partial.
(** ... resetting frees all chunks but one, and the destructor frees each chunk
    exactly once and leaves none. *)
Theorem C29_no_leak_partial : forall zero ds al, 0 <= ds -> In al [1; 2; 4; 8; 16] -> forall s v, reachable zero ds al s v ->
  destroy s = Ok [] /\ (failed v = false -> exists s', reset s = Ok s' /\ (List.length (blocks s') <= 1)%nat /\ mem s' = mem s).
Proof.
  intros zero ds al DS DA s v R. pose proof (reachable_inv ds al DS DA zero s v R) as I. split; [eapply destroy_ok; eauto|]. intros F. destruct (reset_ok al s v I F) as (s' & E & _ & L & M). eauto.
Qed.
Print Assumptions C29_no_leak_partial.
(** After a failed allocation m_memory_begin is NULL, so reset makes alloc hand out
    memory at address 0. *)
Definition script := 
  let (s0, _) := create (Some (4096, fun _ => 7)) (fun _ => 0) 64 in
  do (s1, p1) <- pod_alloc 8 8 s0 None 100;
  do s2 <- reset s1;
  do (s3, p3) <- pod_alloc 8 8 s2 None 2;
  Ok (p1, p3, blocks s3).
Theorem C29_reset_refuted : script = Ok (None, Some 0, [(4096, 64)]).
Proof. vm_compute. reflexivity. Qed.
Print Assumptions C29_reset_refuted.
Example C29_case :
  let (s0, _) := create (Some (4096, fun _ => 7)) (fun _ => 0) 64 in
  (do (s1, p1) <- zero_alloc 4 8 s0 None 3; do (s2, p2) <- zero_alloc 4 8 s1 None 3; do (s3, p3) <- zero_alloc 4 8 s2 (Some (8192, fun _ => 9)) 20; Ok (p1, p2, p3, blocks s3))
  = Ok (Some 4096, Some 4112, Some 8192, [(4096, 64); (8192, 80)]).
Proof. vm_compute. reflexivity. Qed.

(** C30: resizing the latest allocation keeps its bytes and those of the others:
    the zero-initialising arena, always; ... *)
Theorem C30_zeroinit : forall ds al, 0 <= ds -> In al [1; 2; 4; 8; 16] -> forall s v c ans r g, reachable true ds al s v -> okcount ds c -> recent v = Some r -> given v = r :: g ->
  (exists s' p, zero_resize ds s ans (fst r) c = Ok (s', Some p) /\ p mod al = 0 /\ (0 < c * ds -> exists b, In b (blocks s') /\ within (p, c * ds) b) /\ Forall (disjoint (p, c * ds)) g /\
     (forall k, 0 <= k < Z.min (snd r) (c * ds) -> mem s' (p + k) = mem s (fst r + k)) /\ (forall q x, In q g -> inr x q -> mem s' x = mem s x)) \/
  (exists s', zero_resize ds s ans (fst r) c = Ok (s', None) /\ mem s' = mem s).
Proof.
  intros ds al DS DA s v c ans r g R C RE GV. pose proof (reachable_inv ds al DS DA true s v R) as I.
  assert (P : forall s' p, Inv al s' (mkview ((p, c * ds) :: g) (Some (p, c * ds)) (failed v)) -> p mod al = 0 /\ (0 < c * ds -> exists b, In b (blocks s') /\ within (p, c * ds) b)).
  { intros s' p (_ & _ & _ & _ & _ & J & _). inversion J as [|? ? (_ & _ & A & B & _) _]; subst. auto. }
  destruct (Z.le_gt_cases (fst r + c * ds) (mend s)) as [F|F].
  - left. destruct (resize_place ds al DS s v ans r g c I RE GV C F) as (_ & E & J & D). eexists _, _. split; [exact E|]. destruct (P _ _ J). auto 7.
  - destruct (zero_move ds al DA s v ans r g c I RE GV C F) as [(s' & p & E & J & D & M & L & K & _)|(s' & E & _ & M)]; [left|right; eauto].
    exists s', p. destruct (P s' p J). split; [auto|split; [auto|split; [auto|split; [auto|split; [|auto]]]]]. intros k Hk. apply K. lia.
Qed.
Print Assumptions C30_zeroinit.
(** ... the POD arena, while the data fits in its chunk; ... *)
Theorem C30_pod_partial : forall ds al, 0 <= ds -> In al [1; 2; 4; 8; 16] -> forall s v c ans r g, reachable false ds al s v -> okcount ds c -> recent v = Some r -> given v = r :: g -> fst r + c * ds <= mend s ->
  exists s', pod_resize ds s ans (fst r) c = Ok (s', Some (fst r)) /\ mem s' = mem s /\ Forall (disjoint (fst r, c * ds)) g /\ (0 < c * ds -> exists b, In b (blocks s') /\ within (fst r, c * ds) b).
Proof.
  intros ds al DS DA s v c ans r g R C RE GV F. pose proof (reachable_inv ds al DS DA false s v R) as I.
  destruct (resize_place ds al DS s v ans r g c I RE GV C F) as (E & _ & J & D). eexists. split; [exact E|]. split; [auto|split; auto].
  destruct J as (_ & _ & _ & _ & _ & J & _). inversion J as [|? ? (_ & _ & A & B & _) _]; subst. auto.
Qed.
Print Assumptions C30_pod_partial.
(** ... and when it does not fit, the copy reads and writes out of bounds, except
    when malloc places the new chunk exactly behind the old one. *)
Theorem C30_pod_move_refuted : forall ds al, 0 <= ds -> In al [1; 2; 4; 8; 16] -> forall s v c ans r g a m, reachable false ds al s v -> okcount ds c -> recent v = Some r -> given v = r :: g -> 0 < snd r -> mend s < fst r + c * ds ->
  malloc (blocks s) ans (Z.max (total s) (c * ds)) = Some (a, m) -> a <> mend s -> pod_resize ds s ans (fst r) c = UB.
Proof.
  intros ds al DS DA s v c ans r g a m R C RE GV POS F M NA. pose proof (reachable_inv ds al DS DA false s v R) as I.
  pose proof (pod_move ds al s v ans r g c I RE GV C F POS) as X. rewrite M in X. auto.
Qed.
Print Assumptions C30_pod_move_refuted.
(** The hypotheses are met: a held block that must move. *)
Definition demo (zero : bool) (n : Z) :=
  let (s0, _) := create (Some (4096, fun _ => 7)) (fun _ => 0) 64 in
  do (s1, p1) <- alloc zero 8 8 s0 None 2;
  match p1 with Some p => resize zero 8 s1 (Some (8192, fun _ => 9)) p n | None => UB end.
Example C30_case : (do (s, p) <- demo true 100; Ok (p, mem s 8192, mem s 8207, mem s 8208)) = Ok (Some 8192, 0, 0, 0) /\ (do (s, p) <- demo false 100; Ok p) = UB /\ (do (s, p) <- demo false 8; Ok p) = Ok (Some 4096).
Proof. split; [|split]; vm_compute; reflexivity. Qed.
Example C30_reach : exists s v r g, reachable false 8 8 s v /\ recent v = Some r /\ given v = r :: g /\ 0 < snd r /\ mend s < fst r + 100 * 8.
Proof.
  destruct (create (Some (4096, fun _ => 7)) (fun _ => 0) 64) as [s0 k] eqn:E0. assert (k = true) by (vm_compute in E0; congruence). subst k.
  assert (R0 : reachable false 8 8 s0 (mkview [] None false)) by (eapply reach_create; [|exact E0]; lia).
  destruct (alloc false 8 8 s0 None 2) as [[s1 [p|]]| | |] eqn:E1; try (vm_compute in E0, E1; injection E0 as <-; discriminate E1).
  assert (R1 : reachable false 8 8 s1 (mkview [(p, 2 * 8)] (Some (p, 2 * 8)) false)).
  { eapply (reach_step _ _ _ _ _ (OAlloc 2)); [exact R0|cbn; unfold okcount; lia|]. exact (st_alloc false 8 8 s0 (mkview [] None false) 2 None s1 p E1). }
  exists s1, (mkview [(p, 2 * 8)] (Some (p, 2 * 8)) false), (p, 2 * 8), []. split; [exact R1|split; [reflexivity|split; [reflexivity|split; [reflexivity|]]]].
  vm_compute in E0. injection E0 as <-. vm_compute in E1. injection E1 as <- <-. reflexivity.
Qed.

(** C31: every byte alloc of the zero-initialising arena hands out is 0, and so are
    the new bytes of a resize that moves; ... *)
Theorem C31_alloc : forall ds al, 0 <= ds -> In al [1; 2; 4; 8; 16] -> forall s v c ans s' p, reachable true ds al s v -> okcount ds c ->
  zero_alloc ds al s ans c = Ok (s', Some p) -> forall k, 0 <= k < c * ds -> mem s' (p + k) = 0.
Proof.
  intros ds al DS DA s v c ans s' p R C E k K. pose proof (reachable_inv ds al DS DA true s v R) as I.
  destruct (zero_alloc_ok ds al DS DA s v ans c I C) as [(s2 & p2 & E2 & _ & _ & _ & Z)|(s2 & E2 & _)]; rewrite E2 in E; [|discriminate]. injection E as <- <-. apply Z. unfold inr. cbn [fst snd]. lia.
Qed.
Print Assumptions C31_alloc.
Theorem C31_resize_partial : forall ds al, 0 <= ds -> In al [1; 2; 4; 8; 16] -> forall s v c ans r s' p, reachable true ds al s v -> okcount ds c -> recent v = Some r -> mend s < fst r + c * ds ->
  zero_resize ds s ans (fst r) c = Ok (s', Some p) -> forall k, snd r <= k < c * ds -> mem s' (p + k) = 0.
Proof.
  intros ds al DS DA s v c ans r s' p R C RE F E k K. pose proof (reachable_inv ds al DS DA true s v R) as I. pose proof I as (_ & _ & _ & _ & _ & _ & _ & I8). destruct (I8 r RE) as ((g & GV) & _).
  destruct (zero_move ds al DA s v ans r g c I RE GV C F) as [(s2 & p2 & E2 & _ & _ & _ & _ & _ & Z)|(s2 & E2 & _)]; rewrite E2 in E; [|discriminate]. injection E as <- <-. auto.
Qed.
Print Assumptions C31_resize_partial.
(** ... but a resize in place clears nothing: the new bytes are what the memory
    held before. *)
Theorem C31_resize_in_place_refuted : forall ds al, 0 <= ds -> In al [1; 2; 4; 8; 16] -> forall s v c ans r, reachable true ds al s v -> okcount ds c -> recent v = Some r -> fst r + c * ds <= mend s ->
  exists s', zero_resize ds s ans (fst r) c = Ok (s', Some (fst r)) /\ forall x, mem s' x = mem s x.
Proof.
  intros ds al DS DA s v c ans r R C RE F. pose proof (reachable_inv ds al DS DA true s v R) as I. pose proof I as (_ & _ & _ & _ & _ & _ & _ & I8). destruct (I8 r RE) as ((g & GV) & _).
  destruct (resize_place ds al DS s v ans r g c I RE GV C F) as (_ & E & _). eexists. split; [exact E|reflexivity].
Qed.
Print Assumptions C31_resize_in_place_refuted.
Example C31_case : (do (s, p) <- demo true 3; Ok (p, mem s 4111, mem s 4112)) = Ok (Some 4096, 0, 7).
Proof. vm_compute. reflexivity. Qed.

(** C53: clipping to the file follows Python slices: exactly the positions the
    slice [b:e] selects, ... *)
Definition bound (size i : Z) : Z := if i <? 0 then i + size else i.
Theorem C53_clip : forall size b e, 0 <= size < 2 ^ 63 -> s64 b -> s64 e -> exists b' e', clip_begin_end size b e = Ok (b', e') /\ 0 <= b' <= e' /\ e' <= size /\
  forall x, b' <= x < e' <-> 0 <= x < size /\ bound size b <= x < bound size e.
Proof.
  intros size b e S B E. unfold s64 in *. unfold clip_begin_end, bound.
  assert (X : forall i, - 2 ^ 63 <= i < 2 ^ 63 -> i < 0 -> add64 i size = Ok (i + size)) by (intros i I N; apply add64_ok; unfold s64; lia).
  assert (HB : exists b', (if b <? 0 then do x <- add64 b size; Ok (if x <? 0 then 0 else x) else Ok (if b >=? size then size else b)) = Ok b' /\ b' = Z.min size (Z.max 0 (if b <? 0 then b + size else b))).
  { destruct (Z.ltb_spec b 0) as [L|L].
    - rewrite X by lia. cbn [bind]. eexists. split; [reflexivity|]. destruct (Z.ltb_spec (b + size) 0); lia.
    - eexists. split; [reflexivity|]. rewrite Z.geb_leb. destruct (Z.leb_spec size b); lia. }
  destruct HB as (b' & EB & VB). rewrite EB. cbn [bind].
  assert (HE : exists e', (if e <? 0 then do x <- add64 e size; Ok (if x <=? b' then b' else x) else Ok (if e <=? b' then b' else if e >=? size then size else e)) = Ok e' /\ e' = Z.max b' (Z.min size (if e <? 0 then e + size else e))).
  { destruct (Z.ltb_spec e 0) as [L|L].
    - rewrite X by lia. cbn [bind]. eexists. split; [reflexivity|]. destruct (Z.leb_spec (e + size) b'); lia.
    - eexists. split; [reflexivity|]. rewrite Z.geb_leb. destruct (Z.leb_spec e b'), (Z.leb_spec size e); lia. }
  destruct HE as (e' & EE & VE). rewrite EE. cbn [bind]. exists b', e'. split; auto. destruct (b <? 0), (e <? 0); split; try lia; split; try lia; intros x; lia.
Qed.
Print Assumptions C53_clip.
(** ... and the mapping starts on a page boundary, covers them, gives a pointer to
    the first, and is unmapped with the size it was mapped with. *)
Theorem C53_map : forall size page b e, 0 <= size < 2 ^ 63 -> 0 < page -> s64 b -> s64 e -> exists mapbegin mapsize offset out_size unmapsize b' e',
  map_file size page b e = Ok (mapbegin, mapsize, offset, out_size, unmapsize) /\ clip_begin_end size b e = Ok (b', e') /\
  mapbegin mod page = 0 /\ 0 <= mapbegin /\ 0 <= offset < page /\ mapbegin + offset = b' /\ out_size = e' - b' /\ offset + out_size = mapsize /\ unmapsize = mapsize.
Proof.
  intros size page b e S P B E. destruct (C53_clip size b e S B E) as (b' & e' & EC & R1 & R2 & _). unfold map_file. rewrite EC. cbn [bind].
  exists (b' / page * page), (e' - b' / page * page), (b' - b' / page * page), (e' - b'), (e' - b' + (b' - b' / page * page)), b', e'. split; [reflexivity|split; [reflexivity|]].
  pose proof (Z.div_mod b' page ltac:(lia)). pose proof (Z.mod_pos_bound b' page P). assert (0 <= b' / page) by (apply Z.div_pos; lia).
  split; [apply Z.mod_mul; lia|]. split; [apply Z.mul_nonneg_nonneg; lia|]. split; [lia|]. split; [lia|]. split; [lia|]. split; lia.
Qed.
Print Assumptions C53_map.
Example C53_case : clip_begin_end 10 (-3) 9223372036854775807 = Ok (7, 10) /\ clip_begin_end 10 4 (-20) = Ok (4, 4) /\ clip_begin_end 10 12 3 = Ok (10, 10) /\ map_file 10000 4096 5000 (-1) = Ok (4096, 5903, 904, 4999, 5903).
Proof. split; [|split; [|split]]; reflexivity. Qed.
