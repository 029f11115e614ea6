(* C113: the place at which a lost particle is reported *)
From Coq Require Import ZArith Psatz.
From Verif Require Import RBase Cov Bunch BunchSpec CollimateSpec Collimate CollimateProps.
Local Open Scope R_scope.

(* Specification: a particle is followed from the entrance in steps of one bin and is
   lost at the first of the places 0, bin, 2 bin, ... before the exit at which it is
   outside the aperture. *)
Section Places.
Variables (ap : R -> R -> R -> bool) (bin len : R) (advance : R -> R -> vec6 -> vec6).
Definition inside_at (k : nat) (q : particle) : bool :=
  let v := along advance bin k (pv q) in ap (vx v) (vy v) (INR k * bin).
Definition passes (k : nat) (q : particle) : bool := forallb (fun j => inside_at j q) (seq 0 k).
Definition first_at (k : nat) (q : particle) : bool := passes k q && negb (inside_at k q).
Definition reported (k : nat) (q : particle) : R * particle :=
  let v := along advance bin k (pv q) in
  (INR k * bin, mkP (V6 (vx v) (vxp v) (vy v) (vyp v) (Rmax 0 (Rmin len (vct v + INR k * bin))) (vdp v)) (pid q)).
Definition places (from n : nat) (l : list particle) : list (R * particle) :=
  flat_map (fun k => map (reported k) (filter (first_at k) l)) (seq from n).

Definition moved (k : nat) (q : particle) : particle := mkP (along advance bin k (pv q)) (pid q).
Lemma passes_S : forall k q, passes (S k) q = (passes k q && inside_at k q)%bool.
Proof. intros k q. unfold passes. rewrite seq_S, forallb_app. cbn. now rewrite andb_true_r. Qed.
Lemma filter_filter A (f g : A -> bool) l : filter f (filter g l) = filter (fun x => g x && f x)%bool l.
Proof. induction l as [|x l IH]; cbn; auto. destruct (g x); cbn; rewrite IH; destruct (f x); auto. Qed.
Lemma filter_map A B (h : A -> B) f l : filter f (map h l) = map h (filter (fun x => f (h x)) l).
Proof. induction l as [|x l IH]; cbn; auto. destruct (f (h x)); cbn; now rewrite IH. Qed.

Lemma places_none l : forall n k, filter (passes k) l = [] -> places k n l = [].
Proof.
  induction n as [|n IH]; intros k H; [reflexivity|]. unfold places. cbn [seq flat_map].
  fold (places (S k) n l).
  assert (E : filter (first_at k) l = []). { unfold first_at. rewrite <- filter_filter, H. reflexivity. }
  rewrite E. cbn. apply IH. rewrite (filter_ext (passes (S k)) (fun q => passes k q && inside_at k q)%bool) by (intros; apply passes_S).
  rewrite <- filter_filter, H. reflexivity.
Qed.
Lemma clamp_is c : 0 < len -> (if Rltb c 0 then 0 else if Rltb len c then len else c) = Rmax 0 (Rmin len c).
Proof.
  intros L. unfold Rmax, Rmin. destruct (Rltb_spec c 0), (Rltb_spec len c), (Rle_dec len c); destruct (Rle_dec 0 _); lra.
Qed.

Lemma relose_places l : 0 < bin -> 0 < len -> forall n k m r d,
  INR k * bin < len -> (forall j, (j < k + m)%nat -> INR j * bin < len) -> len <= INR (k + m) * bin ->
  relose ap bin advance n len (INR k * bin) (map (moved k) (filter (passes k) l)) = Ok (r, d) ->
  d = places k m l.
Proof.
  intros B L. induction n as [|n IH]; intros k m r d K J M E; cbn [relose] in E.
  - destruct (Rleb_spec 0 (len - INR k * bin)); [|lra]. cbn [andb] in E.
    destruct (map (moved k) (filter (passes k) l)) eqn:F; cbn in E; [|discriminate].
    apply (f_equal (fun x => match x with Ok q => snd q | _ => [] end)) in E. cbn in E.
    rewrite places_none; [auto|]. apply map_eq_nil in F. exact F.
  - destruct (Rleb_spec 0 (len - INR k * bin)); [|lra]. cbn [andb] in E.
    destruct (Nat.eqb_spec (length (map (moved k) (filter (passes k) l))) 0) as [Z|Z]; cbn [negb] in E.
    { apply (f_equal (fun x => match x with Ok q => snd q | _ => [] end)) in E. cbn in E.
      rewrite places_none; [auto|]. rewrite map_length in Z. now apply length_zero_iff_nil. }
    destruct m as [|m]. { rewrite Nat.add_0_r in M. lra. }
    unfold places. cbn [seq flat_map]. fold (places (S k) m l).
    rewrite !filter_map, !filter_filter in E.
    assert (O : map (fun p => (INR k * bin, p)) (map (lost_at len (INR k * bin))
              (map (moved k) (filter (fun x => passes k x && outside ap (INR k * bin) (pv (moved k x)))%bool l)))
              = map (reported k) (filter (first_at k) l)).
    { rewrite !map_map. unfold first_at, inside_at, outside, moved. cbn [pv pid]. apply map_ext. intros q.
      unfold reported, lost_at, with_ct. cbn [pv pid]. rewrite clamp_is by exact L. reflexivity. }
    assert (Hin : map (fun p => mkP (advance (INR k * bin) bin (pv p)) (pid p))
              (map (moved k) (filter (fun x => passes k x && negb (outside ap (INR k * bin) (pv (moved k x))))%bool l))
              = map (moved (S k)) (filter (passes (S k)) l)).
    { rewrite map_map. rewrite (filter_ext (passes (S k)) (fun q => passes k q && inside_at k q)%bool) by (intros; apply passes_S).
      rewrite (filter_ext _ (fun q => passes k q && inside_at k q)%bool). 2:{ intros q. unfold outside, inside_at, moved. cbn. now rewrite negb_involutive. }
      reflexivity. }
    destruct (Rltb_spec 0 (len - INR k * bin)); [|lra].
    destruct (Rltb_spec (len - INR k * bin - bin) 0) as [S1|S1].
    + (* the last, shorter step *)
      replace (len - (INR k * bin + (len - INR k * bin))) with 0 in E by ring.
      destruct (Reqb_spec 0 0); [|lra]. cbn [bind fst snd] in E.
      apply (f_equal (fun x => match x with Ok q => snd q | _ => [] end)) in E. cbn [snd] in E.
      rewrite <- E, O. f_equal.
      destruct m as [|m]; [reflexivity|]. exfalso. specialize (J (S k) ltac:(lia)). rewrite S_INR in J. lra.
    + replace (INR k * bin + bin) with (INR (S k) * bin) in E by (rewrite S_INR; ring).
      rewrite Hin in E.
      destruct (Reqb_spec (len - INR (S k) * bin) 0) as [Z1|Z1]; cbn [bind fst snd] in E.
      * apply (f_equal (fun x => match x with Ok q => snd q | _ => [] end)) in E. cbn [snd] in E.
        rewrite <- E, O. f_equal.
        destruct m as [|m]; [reflexivity|]. exfalso. specialize (J (S k) ltac:(lia)). lra.
      * match type of E with bind ?t _ = _ => destruct t as [[r' d']|e|] eqn:T end; try discriminate.
        cbn [bind fst snd] in E. apply (f_equal (fun x => match x with Ok q => snd q | _ => [] end)) in E. cbn [snd] in E.
        rewrite <- E, O. f_equal. eapply IH; [| | | exact T].
        -- rewrite S_INR in *. lra.
        -- intros j Hj. apply J. lia.
        -- replace (S k + m)%nat with (k + S m)%nat by lia. exact M.
Qed.
End Places.

Lemma pick_casualties (h : particle -> vec6) fate : forall (l pre : list particle),
  pick (pre ++ l) (map fst (casualties fate (length pre) (map (fun p => mkP (h p) (pid p)) l))) =
  Ok (map snd (filter (fun q => match fate (fst q) (mkP (h (snd q)) (pid (snd q))) with None => true | _ => false end)
                 (combine (seq (length pre) (length l)) l))).
Proof.
  induction l as [|p l IH]; intros pre; cbn; [reflexivity|].
  specialize (IH (pre ++ [p])). rewrite app_length in IH. cbn [length] in IH. rewrite Nat.add_1_r, <- app_assoc in IH.
  cbn [app] in IH. destruct (fate (length pre) _); [exact IH|]. cbn [map pick fst snd].
  assert (V : vget (E := lerr) (pre ++ p :: l) (length pre) = Ok p). { unfold vget. rewrite nth_error_app2, Nat.sub_diag by lia. reflexivity. }
  rewrite V. cbn [bind]. rewrite IH. reflexivity.
Qed.
Lemma filter_combine (f : particle -> bool) : forall (l : list particle) n, map snd (filter (fun q => f (snd q)) (combine (seq n (length l)) l)) = filter f l.
Proof. induction l as [|p l IH]; intros n; cbn; auto. destruct (f p); cbn; now rewrite IH. Qed.

(* A bunch enters a component, is moved, and is checked: what is reported are the
   particles found outside, each at the first place where it is outside when followed
   from the coordinates it entered with. *)
Theorem C113_place ap bin scatter advance turns thr s len f st st' d N : 0 < bin -> 0 < len ->
  index_ok (index st) (bunch st) ->
  (forall j, (j < N)%nat -> INR j * bin < len) -> len <= INR N * bin ->
  check ap false bin scatter advance turns thr s len (transport f (enter_component false st)) = Ok (st', d) ->
  d = places ap bin len advance 0 N (filter (fun p => negb (ap (vx (f p)) (vy (f p)) s)) (bunch st)).
Proof.
  intros B L I J M E. set (t := transport f (enter_component false st)) in *.
  assert (It : index_ok (index t) (bunch t)). { unfold t, transport. cbn. destruct (index st); cbn in *; auto. now rewrite map_length. }
  unfold check in E. destruct (first_out ap false bin s 0 (bunch t)) as [n|] eqn:F.
  2:{ pose proof (first_none ap false bin s _ _ F) as H. apply (f_equal (fun x => match x with Ok q => snd q | _ => [] end)) in E. cbn in E. subst d.
      assert (Z : filter (fun p => negb (ap (vx (f p)) (vy (f p)) s)) (bunch st) = []).
      { assert (G : forall l : list particle, (forall p, In p l -> In p (bunch st)) -> filter (fun p => negb (ap (vx (f p)) (vy (f p)) s)) l = []).
        { induction l as [|p l IHl]; intros Hl; cbn; auto. specialize (H (mkP (f p) (pid p))). unfold outside, placed in H. cbn in H. rewrite H.
          - apply IHl. intros; apply Hl; now right.
          - apply (in_map (fun p => mkP (f p) (pid p))). apply Hl. now left. }
        apply G. auto. }
      rewrite Z. unfold places. clear. generalize (seq 0 N). induction l; cbn; auto. }
  destruct (first_some ap false bin s _ _ _ F) as (_ & Bf & _).
  destruct (sift_ok ap false bin scatter s n (bunch t) 0 (index t) It Bf) as (g & ES & Lg). rewrite ES in E. cbn [bind kept kept_ix gone gone_ix gone_pos] in E.
  assert (P : pick (input t) (map fst (casualties (fate ap false bin scatter s) 0 (bunch t))) = Ok (filter (fun p => negb (ap (vx (f p)) (vy (f p)) s)) (bunch st))).
  { pose proof (pick_casualties f (fate ap false bin scatter s) (bunch st) []) as K. cbn [app length] in K. unfold t, transport, enter_component. cbn [bunch input]. rewrite K. f_equal.
    rewrite <- (filter_combine (fun p => negb (ap (vx (f p)) (vy (f p)) s)) (bunch st) 0). f_equal. apply filter_ext. intros [k q]. cbn. unfold fate, outside, placed. cbn. destruct (ap _ _ s); reflexivity. }
  rewrite P in E.
  assert (NZ : Nat.eqb (length (map fst (casualties (fate ap false bin scatter s) 0 (bunch t)))) 0 = false).
  { apply Nat.eqb_neq. rewrite map_length. intros Z. apply length_zero_iff_nil in Z. revert Z. apply survive_none; auto.
    destruct (first_some ap false bin s _ _ _ F) as (_ & _ & p & Pn & O). exists p. split; auto. eapply nth_error_In; eauto. }
  rewrite NZ in E. destruct (Reqb_spec len 0); [lra|]. cbn [negb andb bind] in E.
  match type of E with bind ?t0 _ = _ => destruct t0 as [[r d']|e|] eqn:T end; try discriminate. cbn [bind fst snd] in E.
  destruct (too_many _ _ _); [discriminate|]. apply (f_equal (fun x => match x with Ok q => snd q | _ => [] end)) in E. cbn [snd] in E. subst d'.
  eapply relose_places with (k := 0%nat); eauto.
  - cbn. lra.
  - cbn [INR]. rewrite Rmult_0_l.
    assert (Q : map (moved bin advance 0) (filter (passes ap bin advance 0) (filter (fun p => negb (ap (vx (f p)) (vy (f p)) s)) (bunch st))) = filter (fun p => negb (ap (vx (f p)) (vy (f p)) s)) (bunch st)).
    { rewrite <- (map_id (filter (fun p => negb (ap (vx (f p)) (vy (f p)) s)) (bunch st))) at 2.
      assert (G : forall l, filter (passes ap bin advance 0) l = l) by (induction l; cbn; congruence). rewrite G. apply map_ext. intros []; reflexivity. }
    rewrite Q. exact T.
Qed.
Print Assumptions C113_place.

(* every particle is reported at most once, within the component *)
Theorem C113_once ap bin advance len N l z p : 0 < bin -> 0 < len -> (forall j, (j < N)%nat -> INR j * bin < len) ->
  In (z, p) (places ap bin len advance 0 N l) -> 0 <= z < len /\ 0 <= vct (pv p) <= len /\ In (pid p) (map pid l).
Proof.
  intros B L J I. apply in_flat_map in I. destruct I as (k & K & I). apply in_seq in K. apply in_map_iff in I. destruct I as (q & E & I).
  unfold reported in E. pose proof (f_equal fst E) as E1. pose proof (f_equal snd E) as E2. cbn [fst snd] in E1, E2. subst z p. cbn [pv pid vct].
  split; [|split]. 
  - pose proof (pos_INR k). split; [nra|]. apply J. lia.
  - unfold Rmax, Rmin. destruct (Rle_dec len _); destruct (Rle_dec 0 _); lra.
  - apply in_map. now apply filter_In in I.
Qed.
Print Assumptions C113_once.
Theorem C113_distinct ap bin advance len N l : (length (places ap bin len advance 0 N l) <= length l)%nat.
Proof.
  unfold places. 
  assert (G : forall n k, (length (flat_map (fun k => map (reported bin len advance k) (filter (first_at ap bin advance k) l)) (seq k n)) <= length (filter (passes ap bin advance k) l))%nat).
  { induction n as [|n IH]; intros k; cbn; [lia|]. rewrite app_length, map_length. specialize (IH (S k)).
    enough (length (filter (first_at ap bin advance k) l) + length (filter (passes ap bin advance (S k)) l) = length (filter (passes ap bin advance k) l))%nat by lia.
    clear. induction l as [|q l IH]; [reflexivity|]. cbn [filter]. rewrite passes_S. unfold first_at at 1. destruct (passes ap bin advance k q), (inside_at ap bin advance k q); cbn; lia. }
  specialize (G N 0%nat). eapply Nat.le_trans; [exact G|]. clear. induction l; cbn [filter length]; [lia|]. cbn in *. lia.
Qed.
Print Assumptions C113_distinct.

(* a particle drifting outwards by 2 per bin through a slit of half width 3 *)
Example C113_case : places slit 1 4 (fun _ _ v => V6 (vx v + 2) 0 0 0 0 0) 0 4 [mkP (V6 0 0 0 0 0 0) 7%Z] = [(2, mkP (V6 4 0 0 0 2 0) 7%Z)].
Proof.
  unfold places, first_at, passes, inside_at. cbn [seq flat_map filter forallb along pv vx vy INR].
  rewrite !(slit_val 0 _ _ true), !(slit_val (0 + 2) _ _ true), !(slit_val (0 + 2 + 2) _ _ false) by lra. cbn [andb negb map app].
  rewrite ?andb_false_r. cbn [andb map app]. unfold reported. cbn [along pv pid vx vxp vy vyp vct vdp INR].
  rewrite Rmin_right by lra. rewrite Rmax_right by lra. repeat f_equal; ring.
Qed.
