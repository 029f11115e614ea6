From Coq Require Import ZArith Lra Lia.
From Verif Require Import RBase Bunch BunchSpec Optics Orbit OrbitSpec OrbitProofs OrbitProps OrbitFindProps.
Local Open Scope R_scope.

(* ---- C221: the rms dispersion starts from no dispersion, and the rows are one component late ---- *)
(* a machine whose dispersion is 1 at the start and 2 in the middle *)
Definition two_part : list comp :=
  [mkC 1 false (fun _ v => V6 (vx v + vdp v) (vxp v) (vy v) (vyp v) (vct v) (vdp v));
   mkC 1 false (fun _ v => V6 (vx v / 2) (vxp v / 2) (vy v / 2) (vyp v / 2) (vct v) (vdp v))].
Definition two_mat : nat -> nat -> R := fun i j =>
  if Nat.eqb i j then (if Nat.ltb i 4 then / 2 else 1) else if Nat.eqb i 0 && Nat.eqb j 5 then / 2 else 0.
Lemma two_affine : affine two_mat (fun _ => 0) (lap 0 None two_part 0).
Proof. intros v i I. rewrite !tot_S, tot_0. unfold lap, journey. do 6 (destruct i as [|i]; [cbn; field|]). lia. Qed.
Lemma two_diag i j : (i < 4)%nat -> (j < 4)%nat -> i <> j -> less_one two_mat i j = 0.
Proof.
  intros I J N. unfold less_one, two_mat, delta_. destruct (Nat.eqb_spec i j); [contradiction|].
  destruct (Nat.eqb_spec j 5); [lia|]. rewrite Bool.andb_false_r. ring.
Qed.
Lemma two_tame : tame 4 (less_one two_mat).
Proof.
  apply (tame_diag 4 _ (/ 2) (/ 2)); [exact two_diag| |lra|lra|lra].
  intros i I. assert (E : less_one two_mat i i = - / 2).
  { unfold less_one, two_mat, delta_. rewrite Nat.eqb_refl. destruct (Nat.ltb_spec i 4); [lra|lia]. }
  rewrite E, Rabs_left by lra. lra.
Qed.
Lemma two_orbit factor d : right factor 4 (less_one two_mat) ->
  exists w it, find_orbit factor two_part (co_transverse true new_co) 0 (at_dp d) = Ok (V6 d 0 0 0 0 d, w, it).
Proof.
  intros Rt.
  destruct (C216_found factor two_part (co_transverse true new_co) 0 (at_dp d) two_mat (fun _ => 0) None ltac:(cbn; lia) (rad_off _ _) default_delta (proj2 default_tol) ltac:(cbn; lia) two_affine Rt two_tame)
    as (p & w & it & E & _ & _ & U & _).
  exists w, it. change 0%Z with (Z.of_nat 0). rewrite E. do 3 f_equal. symmetry. apply U.
  - intros i I. change (dims _) with 4%nat in I. unfold lap, journey. do 4 (destruct i as [|i]; [cbn; field|]). lia.
  - intros i I. change (dims _) with 4%nat in I. do 4 (destruct i as [|i]; [lia|]). do 2 (destruct i as [|i]; [reflexivity|]). lia.
Qed.
Theorem C221_refuted : forall factor delta, right factor 4 (less_one two_mat) -> delta <> 0 ->
  (* the dispersion at the start is 1, after the first component 2, at the end 1 *)
  find_dispersion factor two_part delta 0 = Ok (1, 0, 0, 0) /\
  (* sqrt ((1 (1 + 4) / 2 + 1 (4 + 1) / 2) / 2) = sqrt (5/2) is expected *)
  find_rms_dispersion factor two_part delta = Ok (sqrt (9 / 4), 0, [(0, 2, 0); (1, 1, 0)]).
Proof.
  intros factor delta Rt D. split.
  - change 0%Z with (Z.of_nat 0). destruct (C217_dispersion factor two_part delta 0 two_mat (fun _ => 0) ltac:(cbn; lia) D two_affine Rt two_tame) as (E & -> & _ & U).
    assert (V : forall i, (i < 4)%nat -> (fun i => if Nat.eqb i 0 then 1 else 0) i = E i).
    { apply U. intros i I. rewrite !tot_S, tot_0. unfold two_mat. do 4 (destruct i as [|i]; [cbn; field|]). lia. }
    rewrite <- (V 0%nat), <- (V 1%nat), <- (V 2%nat), <- (V 3%nat) by lia. reflexivity.
  - unfold find_rms_dispersion. destruct (two_orbit factor (- delta) Rt) as (w & it & ->). destruct (two_orbit factor delta Rt) as (w' & it' & ->).
    cbn [bind fst snd]. destruct (Reqb_spec delta 0); [contradiction|]. cbn [rmsd_loop two_part cmap clen fst snd vx vy vdp].
    destruct (Reqb_spec (0 + 1 + 1) 0); [lra|].
    assert (E1 : (delta + delta - (- delta + - delta)) / 2 / delta = 2) by (field; exact D).
    assert (E2 : ((delta + delta) / 2 - (- delta + - delta) / 2) / 2 / delta = 1) by (field; exact D).
    assert (E3 : (0 - 0) / 2 / delta = 0) by (field; exact D).
    assert (E4 : (0 / 2 - 0 / 2) / 2 / delta = 0) by (field; exact D).
    rewrite E1, E2, E3, E4. do 2 f_equal; [f_equal; [f_equal; field|]|repeat f_equal; ring].
    replace ((0 + 1 * (0 * 0 + 0 * 0) / 2 + 1 * (0 * 0 + 0 * 0) / 2) / (0 + 1 + 1)) with 0 by field. apply sqrt_0.
Qed.
Example C221_ex : right dfac 4 (less_one two_mat).
Proof. apply dfac_right. exact two_diag. Qed.

(* ---- C222: the map between two components is taken about the orbit at the first component ---- *)
Theorem C222_linear : forall factor m delta scale a b A k B l,
  (a <= b < length m)%nat -> delta <> 0 ->
  affine A k (lap scale None m 0) -> right factor 6 (less_one A) -> tame 6 (less_one A) -> affine B l (stretch scale None m a b) ->
  exists M, transfer_map_between factor m delta scale (Z.of_nat a) (Z.of_nat b) = Ok M /\ forall i j, (i < 6)%nat -> (j < 6)%nat -> M i j = B i j.
Proof.
  intros factor m delta scale a b A k B l N D H Rt Tm HB. unfold transfer_map_between.
  destruct (C216_found factor m (co_set_scale scale (co_set_delta delta new_co)) 0 vzero A k None ltac:(lia) (rad_off _ _) D (proj2 default_tol) ltac:(cbn; lia) H Rt Tm) as (p & w & it & E & _).
  change 0%Z with (Z.of_nat 0). rewrite E. cbn [bind fst snd].
  exact (C215_between m (tm_set_scale scale (tm_set_delta delta new_tm)) p B l None a b N D (rad_off _ _) HB).
Qed.
(* a displaced sextupole *)
Definition shifted : list comp :=
  [mkC 1 false (fun _ v => V6 (vx v + 1) (vxp v) (vy v) (vyp v) (vct v) (vdp v));
   mkC 1 false (fun _ v => V6 (- (vx v - 1) + (vx v - 1) * (vx v - 1)) (- vxp v) (- vy v) (- vyp v) (- vct v) (- vdp v))].
Definition shifted_mat (d : R) : nat -> nat -> R := fun i j => delta_ i j * (if Nat.eqb i 0 then -2 + d else -2).
Theorem C222_refuted : forall factor d scale, 0 < d < 1 -> right factor 6 (shifted_mat d) ->
  (* the orbit that closes passes the second component at 1 *)
  lap scale None shifted 1 (V6 1 0 0 0 0 0) = V6 1 0 0 0 0 0 /\
  exists M M', transfer_map_between factor shifted d scale 1 1 = Ok M /\
    find_tm_between shifted (tm_set_scale scale (tm_set_delta d new_tm)) (V6 1 0 0 0 0 0) 1 1 = Ok M' /\
    M 0%nat 0%nat = -3 + d /\ M' 0%nat 0%nat = -1 + d.
Proof.
  intros factor d scale D Rt. split; [unfold lap, journey; cbn; f_equal; ring|].
  assert (TE : forall v, through scale None shifted v = V6 (- vx v + vx v * vx v) (- vxp v) (- vy v) (- vyp v) (- vct v) (- vdp v)).
  { intros v. rewrite through_journey. unfold journey. cbn. f_equal; ring. }
  set (co := co_set_scale scale (co_set_delta d new_co)).
  assert (F : exists w it, find_orbit factor shifted co 0 vzero = Ok (vzero, w, it)).
  { exists 0, 2%Z. change 0%Z with (Z.of_nat 0). rewrite (find_unfold factor shifted co 0 vzero None ltac:(cbn; lia) (rad_off _ _)).
    change (Z.to_nat (comax co - 1)) with 19%nat. cbn [iterate]. pose proof default_tol as DT. change (cotol co) with (cotol new_co).
    destruct (Rltb_spec (cotol new_co) 1); [|lra]. change (dims co) with 6%nat. change (codelta co) with d. change (coscale co) with scale.
    change (skipn 0 shifted ++ firstn 0 shifted) with shifted.
    assert (Nw : exists r, newton factor 6 d (through scale None shifted) vzero = Ok r).
    { unfold newton. destruct (Reqb_spec d 0); [lra|]. cbv zeta. set (dg := fun m k : nat => _).
      assert (E : forall i j, (i < 6)%nat -> (j < 6)%nat -> shifted_mat d i j = dg i j).
      { intros i j I J. unfold dg. rewrite !TE. unfold shifted_mat, delta_.
        do 6 (destruct i as [|i]; [do 6 (destruct j as [|j]; [cbn; field; try lra|]); lia|]). lia. }
      destruct (svd_solves factor 6 dg (fun k => coord k (through scale None shifted vzero) - coord k vzero)) as (x & -> & _).
      - eapply right_ext; [exact E|exact Rt].
      - lia.
      - eapply tame_ext; [exact E|]. apply (tame_diag 6 _ 1 2); [| |lra|lra|lra].
        + intros i j I J N. unfold shifted_mat, delta_. destruct (Nat.eqb_spec i j); [contradiction|ring].
        + intros i I. unfold shifted_mat, delta_. rewrite Nat.eqb_refl, Rmult_1_l. destruct (Nat.eqb i 0); rewrite Rabs_left by lra; lra.
      - cbn [bind]. eexists. reflexivity. }
    destruct Nw as (rr & Nw). rewrite Nw. apply newton_closed in Nw; [|right; reflexivity|].
    - subst rr. cbn [bind fst snd iterate]. destruct (Rltb_spec (cotol new_co) 0); [lra|]. reflexivity.
    - intros i I. rewrite TE. do 6 (destruct i as [|i]; [cbn; ring|]). lia. }
  destruct F as (w & it & F). unfold transfer_map_between. fold co. rewrite F. cbn [bind fst snd].
  unfold find_tm_between. change (get_beamline shifted 1 1) with (@Ok oberr (list comp) (tl shifted)). cbn [bind].
  change (rad_of (tmrad _) (tmsize _) (tmnum _)) with (@Ok oberr (option rad) None). cbn [bind]. unfold quotients.
  change (tmdelta _) with d. destruct (Reqb_spec d 0); [lra|]. eexists _, _. split; [reflexivity|]. split; [reflexivity|].
  rewrite !through_journey. unfold journey. cbn. split; field; lra.
Qed.
Example C222_ex : right dfac 6 (shifted_mat (/ 100000000)).
Proof. apply dfac_right. intros i j _ _ N. unfold shifted_mat, delta_. destruct (Nat.eqb_spec i j); [contradiction|ring]. Qed.

(* ---- C223: a transfer matrix asked for without saying anything about radiation ---- *)
Theorem C223_refuted : forall factor m d n s, find_tm factor m (tm_set_scale s (tm_set_obs n (tm_set_delta d new_tm))) = UB.
Proof. reflexivity. Qed.
(* whatever is said about radiation first makes it work; the orbit is searched with the same settings *)
Theorem C223_set : forall factor m t n A k r p,
  (n < length m)%nat -> tmobs t = Z.of_nat n -> tmdelta t <> 0 -> tmsize t <> None -> tmnum t <> None -> radiates (tmrad t) (tmsize t) (tmnum t) r ->
  affine A k (lap (tmscale t) r m n) -> right factor 6 (less_one A) -> tame 6 (less_one A) ->
  exists M q, find_orbit_tm factor m t p = Ok (M, q) /\ closed 6 (lap (tmscale t) r m n) q /\ forall i j, (i < 6)%nat -> (j < 6)%nat -> M i j = A i j.
Proof.
  intros factor m t n A k r p N O D S1 S2 Rr H Rt Tm. unfold find_orbit_tm.
  destruct (tmsize t) as [s|] eqn:Es; [|contradiction]. destruct (tmnum t) as [z|] eqn:Ez; [|contradiction].
  set (c1 := if Reqb s 0 then _ else _).
  assert (C : exists c, c1 = Ok c /\ corad c = tmrad t /\ codelta c = codelta new_co /\ cotol c = cotol new_co /\ comax c = 20%Z /\ cotrans c = false /\ coscale c = 0 /\ radiates (corad c) (cosize c) (conum c) r).
  { unfold c1, co_radiation. clear c1. destruct (tmrad t) eqn:Er.
    - inversion Rr as [|x1 x2 NZ E1 E2 E3|x1 E1 E2 E3].
      + destruct (Reqb_spec s 0); [contradiction|]. eexists. split; [reflexivity|]. cbn. do 6 (split; [reflexivity|]). constructor. exact NZ.
      + destruct (Reqb_spec 0 0); [|lra]. eexists. split; [reflexivity|]. cbn. do 6 (split; [reflexivity|]). constructor.
    - inversion Rr. destruct (Reqb s 0); eexists; (split; [reflexivity|]); cbn; do 6 (split; [reflexivity|]); constructor. }
  destruct C as (c & -> & C1 & C2 & C3 & C4 & C5 & C6 & C7). cbn [bind].
  set (c2 := if Reqb (tmscale t) 0 then c else _).
  assert (G : coscale c2 = tmscale t /\ codelta c2 = codelta new_co /\ cotol c2 = cotol new_co /\ comax c2 = 20%Z /\ cotrans c2 = false /\ radiates (corad c2) (cosize c2) (conum c2) r).
  { unfold c2. destruct (Reqb_spec (tmscale t) 0) as [Z|NZ]; [rewrite Z|]; cbn; auto 10. }
  destruct G as (G1 & G2 & G3 & G4 & G5 & G6). rewrite <- G1 in H.
  assert (Dm : dims c2 = 6%nat) by (unfold dims; rewrite G5; reflexivity). rewrite <- Dm in Rt, Tm.
  destruct (C216_found factor m c2 n p A k r N G6 ltac:(rewrite G2; exact default_delta) ltac:(rewrite G3; apply default_tol) ltac:(lia) H Rt Tm) as (q & w & it & E & Cl & _).
  rewrite O, E. cbn [bind fst snd]. rewrite G1 in *.
  rewrite <- Es, <- Ez in Rr.
  destruct (C215_turn m t q A k r n N O D Rr H) as (M & -> & V). cbn [bind]. exists M, q. split; [reflexivity|]. rewrite Dm in Cl. split; [exact Cl|exact V].
Qed.
Print Assumptions C221_refuted. Print Assumptions C222_linear. Print Assumptions C222_refuted. Print Assumptions C223_refuted. Print Assumptions C223_set.

(* ---- cases ---- *)
Definition halver : list comp :=
  [mkC 2 true (fun _ v => V6 (vx v / 2 + 1) (vxp v / 2) (vy v / 2) (vyp v / 2) (vct v / 2) (vdp v / 2));
   mkC 3 false (fun _ v => V6 (vx v) (vxp v) (vy v) (vyp v) (vct v) (vdp v))].
Definition half_mat : nat -> nat -> R := fun i j => delta_ i j * / 2.
Lemma half_affine s n : (n < 2)%nat -> affine half_mat (fun i => match i with O => 1 | 4%nat => 2 * s | _ => 0 end) (lap s None halver n).
Proof.
  intros N v i I. rewrite !tot_S, tot_0. unfold half_mat, delta_, lap, journey.
  destruct n as [|[|n]]; [| |lia]; do 6 (destruct i as [|i]; [cbn; field|]); lia.
Qed.
Lemma half_diag i j : (i < 6)%nat -> (j < 6)%nat -> i <> j -> less_one half_mat i j = 0.
Proof. intros _ _ N. unfold less_one, half_mat, delta_. destruct (Nat.eqb_spec i j); [contradiction|ring]. Qed.
Lemma half_tame : tame 6 (less_one half_mat).
Proof.
  apply (tame_diag 6 _ (/ 2) (/ 2)); [exact half_diag| |lra|lra|lra]. intros i _. unfold less_one, half_mat, delta_. rewrite Nat.eqb_refl.
  replace (1 * / 2 - 1) with (- / 2) by field. rewrite Rabs_left by lra. lra.
Qed.
Lemma half_right : right dfac 6 (less_one half_mat).
Proof. apply dfac_right. exact half_diag. Qed.
Lemma half_linear s r : linear_lattice s r halver.
Proof.
  constructor; [exists half_mat, (fun i => match i with O => 1 | 4%nat => 2 * s | _ => 0 end)|constructor; [exists delta_, (fun _ => 0)|constructor]];
    intros v i I; rewrite !tot_S, tot_0; unfold half_mat, delta_; do 6 (destruct i as [|i]; [cbn; field|]); lia.
Qed.
(* path length per metre of bend; radiation off but its steps set; matrices and orbits *)
Example C215_ex : exists M1 M2 M, let t := tm_set_scale (/ 10) new_tm in
  find_tm_between halver t vzero 0 0 = Ok M1 /\ find_tm_between halver t (V6 1 2 3 4 5 6) 1 1 = Ok M2 /\
  find_tm_between halver t vzero 0 1 = Ok M /\ forall i j, (i < 6)%nat -> (j < 6)%nat -> M i j = product 6 M2 M1 i j.
Proof. apply (C215_product halver (tm_set_scale (/ 10) new_tm) vzero (V6 1 2 3 4 5 6) vzero None 0 0 1); [lia|lia|cbn; lia|cbn; lra|constructor|apply half_linear]. Qed.
Example C216_ex : exists w it, find_orbit dfac halver (co_set_scale (/ 10) new_co) 0 (V6 7 7 7 7 7 7) = Ok (V6 2 0 0 0 (2 / 5) 0, w, it).
Proof.
  destruct (C216_found dfac halver (co_set_scale (/ 10) new_co) 0 (V6 7 7 7 7 7 7) half_mat _ None ltac:(cbn; lia) (rad_off _ _) default_delta (proj2 default_tol) ltac:(cbn; lia)
    (half_affine _ 0 ltac:(lia)) half_right half_tame) as (p & w & it & E & _ & _ & U & _).
  exists w, it. etransitivity; [exact E|]. do 3 f_equal. symmetry. apply U; [|intros i I; cbn in I; lia].
  intros i I. change (dims _) with 6%nat in I. unfold lap, journey. do 6 (destruct i as [|i]; [cbn; field|]). lia.
Qed.
Example C217_ex : find_dispersion dfac two_part (/ 1000) 0 = Ok (1, 0, 0, 0).
Proof. apply (C221_refuted dfac (/ 1000) C221_ex ltac:(lra)). Qed.
Example C220_ex : exists q, find_rms_orbit halver (V6 2 0 0 0 0 0) = Ok q /\ vx q = 2.
Proof.
  destruct (C220_constant halver (V6 2 0 0 0 0 0) 0 2) as (q & E & Q); [cbn; lra|lia| |].
  - repeat constructor; cbn; lra.
  - exists q. split; [exact E|]. cbn [coord] in Q. rewrite Q. apply Rabs_right. lra.
Qed.
Example C223_ex : exists M q, find_orbit_tm dfac halver (tm_radiation false (tm_set_num 1 new_tm)) vzero = Ok (M, q) /\ vx q = 2 /\ M 0%nat 0%nat = / 2.
Proof.
  destruct (C223_set dfac halver (tm_radiation false (tm_set_num 1 new_tm)) 0 half_mat _ None vzero ltac:(cbn; lia) eq_refl ltac:(cbn; lra) ltac:(discriminate) ltac:(discriminate) (rad_off _ _)
    (half_affine _ 0 ltac:(lia)) half_right half_tame) as (M & q & E & C & V).
  exists M, q. split; [exact E|]. split.
  - specialize (C 0%nat ltac:(lia)). unfold lap, journey in C. cbn in C. lra.
  - rewrite V by lia. unfold half_mat, delta_. cbn. ring.
Qed.

(* the settings of the search over any history of calls: where radiation is on, the
   steps are those of the last call of Radiation, SetRadStepSize or SetRadNumSteps *)
Inductive setting := Transverse (f : bool) | Size (s : R) | Number (n : Z) | Radiate (f : bool) | Delta (d : R) | Scale (s : R).
Definition apply_setting (c : corb) (o : setting) : corb :=
  match o with
  | Transverse f => co_transverse f c | Size s => co_set_size s c | Number n => co_set_num n c
  | Radiate f => co_radiation f c | Delta d => co_set_delta d c | Scale s => co_set_scale s c
  end.
(* newest first: is radiation on, and in what steps *)
Fixpoint says_on (h : list setting) : bool :=
  match h with [] => false | Radiate f :: _ => f | _ :: r => says_on r end.
Fixpoint says_steps (h : list setting) : option rad :=
  match h with
  | [] => None
  | Size s :: _ => Some (if Req_EM_T s 0 then Steps 0 else StepSize s)
  | Number n :: _ => Some (Steps n)
  | Radiate true :: _ => Some (Steps 1)
  | _ :: r => says_steps r
  end.
Theorem C216_settings h : let c := fold_right (fun o c => apply_setting c o) new_co h in
  corad c = says_on h /\ rad_of (corad c) (cosize c) (conum c) = Ok (if says_on h then says_steps h else None) /\ (says_on h = true -> says_steps h <> None).
Proof.
  cbv zeta. set (c := fold_right _ new_co h).
  assert (G : corad c = says_on h /\ (match says_steps h with
    | None => cosize c = None /\ conum c = None /\ says_on h = false
    | Some (Steps n) => cosize c = Some 0 /\ conum c = Some n
    | Some (StepSize s) => s <> 0 /\ cosize c = Some s end)).
  { unfold c. clear c. induction h as [|o h [IH1 IH2]]; [repeat split|]. cbn [fold_right]. destruct o as [f|s|n|[]|d|s]; cbn [apply_setting says_on says_steps]; try (split; [exact IH1|exact IH2]).
    - split; [exact IH1|]. cbn [co_set_size cosize conum]. destruct (Req_EM_T s 0) as [->|N]; [split; reflexivity|split; [exact N|reflexivity]].
    - split; [exact IH1|]. split; reflexivity.
    - split; [reflexivity|]. split; reflexivity.
    - split; [reflexivity|]. cbn [co_radiation cosize conum]. destruct (says_steps h) as [[]|]; tauto. }
  destruct G as [G1 G2]. split; [exact G1|]. rewrite G1. unfold rad_of. destruct (says_on h).
  - destruct (says_steps h) as [[n|s]|].
    + destruct G2 as [-> ->]. rewrite Reqb_true by reflexivity. split; [reflexivity|discriminate].
    + destruct G2 as [N ->]. rewrite Reqb_false by exact N. split; [reflexivity|discriminate].
    + destruct G2 as (_ & _ & X). discriminate.
  - split; [reflexivity|discriminate].
Qed.
Print Assumptions C216_settings.
Example C216_settings_ex : says_on [Delta 1; Radiate true; Size 3] = true /\ says_steps [Delta 1; Radiate true; Size 3] = Some (Steps 1).
Proof. split; reflexivity. Qed.
