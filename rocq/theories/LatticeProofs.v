From Coq Require Import Sorted.
From Verif Require Import RBase StringPattern StringPatternProofs Lattice LatticeSpec.

(** * beamlines *)
Lemma iterate_ok l : forall fuel i stop, (i <= stop)%nat -> (stop <= length l)%nat -> (stop - i <= fuel)%nat ->
  iterate fuel l i stop = Ok (firstn (stop - i) (skipn i l)).
Proof.
  induction fuel as [|fuel IH]; intros i stop H1 H2 H3; cbn [iterate]; destruct (Nat.eqb_spec i stop) as [E|E].
  - subst. rewrite Nat.sub_diag. reflexivity.
  - lia.
  - subst. rewrite Nat.sub_diag. reflexivity.
  - destruct (nth_error l i) as [x|] eqn:Ex; [|apply nth_error_None in Ex; lia].
    rewrite IH by lia. cbn [bind]. replace (stop - i)%nat with (S (stop - S i)) by lia.
    f_equal. assert (Hs : skipn i l = x :: skipn (S i) l).
    { clear - Ex. revert l Ex. induction i as [|i IHi]; intros [|a l] Ex; simpl in *; try discriminate; [congruence|auto]. }
    rewrite Hs. reflexivity.
Qed.

Lemma iterate_past l : forall fuel i stop, (stop < i)%nat -> iterate fuel l i stop = UB.
Proof.
  induction fuel as [|fuel IH]; intros i stop H; cbn [iterate]; destruct (Nat.eqb_spec i stop); try lia; [reflexivity|].
  destruct (nth_error l i); [|reflexivity]. rewrite IH by lia. reflexivity.
Qed.

(** * pattern pairs *)
Fixpoint occ (q : nat -> cframe -> bool) (n : nat) (l : list cframe) (i : nat) : option nat :=
  match l with
  | [] => None
  | f :: l' => if q i f then (if Nat.eqb n 1 then Some i else occ q (n - 1) l' (S i)) else occ q n l' (S i)
  end.

Lemma filter_map_S (g : nat -> bool) l : length (filter g (map S l)) = length (filter (fun j => g (S j)) l).
Proof. induction l as [|a l IH]; simpl; [reflexivity|]. destruct (g (S a)); simpl; auto. Qed.

Lemma holds_shift q f l j : holds q (f :: l) (S j) = holds (fun i => q (S i)) l j.
Proof. reflexivity. Qed.

Lemma nth_match_cons q n f l i : nth_match q n (f :: l) i <->
  (i = O /\ q O f = true /\ n = 1%nat) \/
  (exists k, i = S k /\ if q O f then (n <> 1%nat /\ nth_match (fun j => q (S j)) (n - 1) l k) else nth_match (fun j => q (S j)) n l k).
Proof.
  unfold nth_match. destruct i as [|k].
  - simpl. unfold holds at 1. simpl. split; [intros [H1 H2]; left; auto|].
    intros [(_ & H1 & ->)|(k & Ek & _)]; [auto|discriminate].
  - rewrite holds_shift. simpl seq. simpl filter. rewrite <- seq_shift. unfold holds at 2. cbn [nth_error].
    destruct (q O f) eqn:Eq; simpl length; rewrite filter_map_S; rewrite (filter_ext (fun j => holds q (f :: l) (S j)) (holds (fun i => q (S i)) l)) by (intros; apply holds_shift).
    + split.
      * intros [H1 H2]. right. exists k. split; [reflexivity|]. split; [lia|]. split; [exact H1|lia].
      * intros [(E & _)|(k' & E & H1 & H2 & H3)]; [discriminate|]. injection E as <-. split; [exact H2|lia].
    + split.
      * intros H. right. exists k. auto.
      * intros [(E & _)|(k' & E & H)]; [discriminate|]. injection E as <-. exact H.
Qed.

Lemma nth_match_ext q q' n l i : (forall j f, q j f = q' j f) -> nth_match q n l i <-> nth_match q' n l i.
Proof.
  intros H. assert (Hh : forall j, holds q l j = holds q' l j) by (intros j; unfold holds; destruct (nth_error l j); auto).
  unfold nth_match. rewrite Hh, (filter_ext _ _ Hh). reflexivity.
Qed.

Lemma occ_spec q : forall l n ni i, (1 <= n)%nat ->
  (occ q n l ni = Some i <-> exists k, i = (ni + k)%nat /\ nth_match (fun j => q (ni + j)%nat) n l k).
Proof.
  induction l as [|f l IH]; intros n ni i Hn; simpl.
  - split; [discriminate|]. intros (k & _ & H & _). unfold holds in H. destruct k; discriminate.
  - assert (Hext : forall m k, nth_match (fun j => q (ni + S j)%nat) m l k <-> nth_match (fun j => q (S ni + j)%nat) m l k).
    { intros m k. apply nth_match_ext. intros. rewrite Nat.add_succ_r. reflexivity. }
    split.
    + intros H. destruct (q ni f) eqn:Eq.
      * destruct (Nat.eqb_spec n 1).
        -- injection H as <-. exists O. split; [lia|]. apply nth_match_cons. left. rewrite Nat.add_0_r. auto.
        -- apply IH in H; [|lia]. destruct H as (k & -> & Hk). exists (S k). split; [lia|]. apply nth_match_cons. right.
           exists k. split; [reflexivity|]. rewrite Nat.add_0_r, Eq. split; [assumption|]. apply Hext. exact Hk.
      * apply IH in H; [|lia]. destruct H as (k & -> & Hk). exists (S k). split; [lia|]. apply nth_match_cons. right.
        exists k. split; [reflexivity|]. rewrite Nat.add_0_r, Eq. apply Hext. exact Hk.
    + intros (k & -> & H). apply nth_match_cons in H. rewrite Nat.add_0_r in H.
      destruct H as [(-> & Eq & ->)|(k' & -> & H)].
      * rewrite Eq. simpl. f_equal. lia.
      * destruct (q ni f).
        -- destruct H as [H1 H2]. destruct (Nat.eqb_spec n 1); [lia|]. apply IH; [lia|]. exists k'. split; [lia|]. apply Hext. exact H2.
        -- apply IH; [lia|]. exists k'. split; [lia|]. apply Hext. exact H.
Qed.

Lemma occ_spec0 q l n i : (1 <= n)%nat -> (occ q n l 0 = Some i <-> nth_match q n l i).
Proof.
  intros Hn. rewrite occ_spec by exact Hn. split.
  - intros (k & -> & H). exact H.
  - intros H. exists i. auto.
Qed.

Lemma find_pair_fst p1 p2 n1 n2 : forall l ni nn1 nn2 i1 i2, (nn1 <= n1)%nat ->
  fst (find_pair p1 p2 n1 n2 l ni nn1 nn2 i1 i2) =
  if Nat.eqb nn1 n1 then i1 else
  match occ (fun _ f => p1 (frame_id f)) (n1 - nn1) l ni with Some i => Some i | None => i1 end.
Proof.
  induction l as [|f l IH]; intros ni nn1 nn2 i1 i2 Hn; cbn [find_pair].
  - destruct (Nat.eqb nn1 n1); reflexivity.
  - destruct (Nat.eqb_spec nn1 n1) as [E|E]; cbn [andb].
    + destruct (Nat.ltb_spec nn1 n1); [lia|]. cbn [andb].
      destruct (Nat.eqb nn2 n2); [reflexivity|]. rewrite IH by lia. destruct (Nat.eqb_spec nn1 n1); [reflexivity|lia].
    + destruct (Nat.ltb_spec nn1 n1); [|lia]. cbn [andb occ].
      destruct (p1 (frame_id f)) eqn:E1; cbn [andb].
      * destruct (Nat.eqb_spec (S nn1) n1) as [E2|E2].
        -- rewrite IH by lia. destruct (Nat.eqb_spec (S nn1) n1); [|lia]. destruct (Nat.eqb_spec (n1 - nn1) 1); [reflexivity|lia].
        -- rewrite IH by lia. destruct (Nat.eqb_spec (S nn1) n1); [lia|]. destruct (Nat.eqb_spec (n1 - nn1) 1); [lia|].
           replace (n1 - S nn1)%nat with (n1 - nn1 - 1)%nat by lia. reflexivity.
      * rewrite IH by lia. destruct (Nat.eqb_spec nn1 n1); [lia|]. reflexivity.
Qed.

Definition is_pos (e : option nat) (i : nat) : bool := match e with Some j => Nat.eqb i j | None => false end.

Lemma occ_ge q : forall l n ni i, occ q n l ni = Some i -> (ni <= i)%nat.
Proof.
  induction l as [|f l IH]; intros n ni i H; simpl in H; [discriminate|].
  destruct (q ni f); [destruct (Nat.eqb n 1); [injection H as <-; lia|]|]; apply IH in H; lia.
Qed.

Lemma find_pair_snd p1 p2 n1 n2 : forall l ni nn1 nn2 i1 i2 e, (nn1 <= n1)%nat -> (nn2 <= n2)%nat ->
  (forall j, i1 = Some j -> (j < ni)%nat) -> e = fst (find_pair p1 p2 n1 n2 l ni nn1 nn2 i1 i2) ->
  snd (find_pair p1 p2 n1 n2 l ni nn1 nn2 i1 i2) =
  if Nat.eqb nn2 n2 then i2 else
  match occ (fun i f => p2 (frame_id f) && negb (is_pos e i)) (n2 - nn2) l ni with Some i => Some i | None => i2 end.
Proof.
  induction l as [|f l IH]; intros ni nn1 nn2 i1 i2 e Hn1 Hn2 Hi He; cbn [find_pair].
  - destruct (Nat.eqb nn2 n2); reflexivity.
  - cbn [find_pair] in He. destruct (Nat.eqb nn1 n1 && Nat.eqb nn2 n2) eqn:Edone.
    + apply andb_prop in Edone. destruct Edone as [_ ->]. reflexivity.
    + assert (Hnot : e <> Some ni -> is_pos e ni = false).
      { intros H. destruct e as [j|]; [|reflexivity]. simpl. destruct (Nat.eqb_spec ni j); [congruence|reflexivity]. }
      assert (Hi' : forall j, i1 = Some j -> (j < S ni)%nat) by (intros j Hj; apply Hi in Hj; lia).
      destruct (Nat.ltb nn1 n1 && p1 (frame_id f) && Nat.eqb (if Nat.ltb nn1 n1 && p1 (frame_id f) then S nn1 else nn1) n1) eqn:Ec.
      * destruct (Nat.ltb_spec nn1 n1) as [Hlt|]; [|discriminate]. cbn [andb] in *.
        destruct (p1 (frame_id f)) eqn:Ep; [|discriminate]. cbn [andb] in *. apply Nat.eqb_eq in Ec.
        rewrite (IH (S ni) (S nn1) nn2 (Some ni) i2 e); [|lia|lia|intros j Hj; injection Hj as <-; lia|exact He].
        destruct (Nat.eqb nn2 n2) eqn:E2; [reflexivity|].
        assert (Ee : e = Some ni).
        { rewrite He, find_pair_fst by lia. destruct (Nat.eqb_spec (S nn1) n1); [reflexivity|lia]. }
        cbn [occ]. rewrite Ee. cbn [is_pos]. rewrite Nat.eqb_refl, andb_false_r. reflexivity.
      * set (nn1' := if Nat.ltb nn1 n1 && p1 (frame_id f) then S nn1 else nn1) in *.
        assert (Hle : (nn1' <= n1)%nat).
        { unfold nn1'. destruct (Nat.ltb_spec nn1 n1); cbn [andb]; [destruct (p1 (frame_id f)); lia|lia]. }
        assert (Ene : e <> Some ni).
        { rewrite He, find_pair_fst by exact Hle. destruct (Nat.eqb nn1' n1).
          - intros E. apply Hi in E. lia.
          - destruct (occ _ _ _ _) as [x|] eqn:Eo; [|intros E; apply Hi in E; lia].
            intros E. injection E as ->. apply occ_ge in Eo. lia. }
        destruct (Nat.eqb_spec nn2 n2) as [E2|E2].
        -- destruct (Nat.ltb_spec nn2 n2); [lia|]. cbn [andb] in *.
           rewrite (IH _ _ _ _ _ e) by (auto || lia). destruct (Nat.eqb_spec nn2 n2); [reflexivity|lia].
        -- destruct (Nat.ltb_spec nn2 n2); [|lia]. cbn [andb] in *.
           destruct (p2 (frame_id f)) eqn:Ep2; cbn [andb] in *.
           ++ cbn [occ]. rewrite Ep2, (Hnot Ene). cbn [andb negb].
              destruct (Nat.eqb_spec (S nn2) n2) as [E3|E3].
              ** rewrite (IH _ _ _ _ _ e) by (auto || lia). destruct (Nat.eqb_spec (S nn2) n2); [|lia].
                 destruct (Nat.eqb_spec (n2 - nn2) 1); [reflexivity|lia].
              ** rewrite (IH _ _ _ _ _ e) by (auto || lia). destruct (Nat.eqb_spec (S nn2) n2); [lia|].
                 destruct (Nat.eqb_spec (n2 - nn2) 1); [lia|]. replace (n2 - S nn2)%nat with (n2 - nn2 - 1)%nat by lia. reflexivity.
           ++ cbn [occ]. rewrite Ep2. cbn [andb].
              rewrite (IH _ _ _ _ _ e) by (auto || lia). destruct (Nat.eqb_spec nn2 n2); [lia|]. reflexivity.
Qed.

Lemma beamline_pat_spec l pat1 pat2 n1 n2 b : (1 <= n1)%nat -> (1 <= n2)%nat ->
  (get_beamline_pat l pat1 pat2 n1 n2 = Ok b <->
   exists i1 i2, b = mkB i1 i2 i1 i2 /\ nth_match (by_name pat1) n1 l i1 /\ nth_match (by_name_except pat2 i1) n2 l i2).
Proof.
  intros H1 H2. unfold get_beamline_pat. destruct (Nat.eqb_spec n1 0); [lia|]. destruct (Nat.eqb_spec n2 0); [lia|]. cbn [orb].
  pose proof (find_pair_fst (pmatch pat1) (pmatch pat2) n1 n2 l 0 0 0 None None ltac:(lia)) as Hf.
  pose proof (find_pair_snd (pmatch pat1) (pmatch pat2) n1 n2 l 0 0 0 None None _ ltac:(lia) ltac:(lia) ltac:(discriminate) eq_refl) as Hs.
  destruct (find_pair (pmatch pat1) (pmatch pat2) n1 n2 l 0 0 0 None None) as [a c]. cbn [fst snd] in *.
  destruct (Nat.eqb_spec 0 n1); [lia|]. destruct (Nat.eqb_spec 0 n2); [lia|]. rewrite Nat.sub_0_r in *.
  set (o1 := occ (fun _ f => pmatch pat1 (frame_id f)) n1 l 0) in *.
  assert (Ha : a = o1) by (rewrite Hf; destruct o1; reflexivity). clear Hf.
  split.
  - destruct a as [i1|]; [|discriminate]. destruct c as [i2|]; [|discriminate]. intros E. injection E as <-.
    exists i1, i2. split; [reflexivity|]. split.
    + apply occ_spec0; [exact H1|]. symmetry. exact Ha.
    + apply occ_spec0; [exact H2|]. cbn [is_pos] in Hs. unfold by_name_except.
      destruct (occ _ n2 l 0) as [x|]; [congruence|discriminate].
  - intros (i1 & i2 & -> & M1 & M2). apply occ_spec0 in M1; [|exact H1]. apply occ_spec0 in M2; [|exact H2].
    unfold by_name in M1. fold o1 in M1. rewrite M1 in Ha. subst a. cbn [is_pos] in Hs. unfold by_name_except in M2.
    rewrite M2 in Hs. subst c. reflexivity.
Qed.

Lemma beamline_pat_error l pat1 pat2 n1 n2 : (1 <= n1)%nat -> (1 <= n2)%nat ->
  get_beamline_pat l pat1 pat2 n1 n2 = Throw BadRange \/ exists b, get_beamline_pat l pat1 pat2 n1 n2 = Ok b.
Proof.
  intros H1 H2. unfold get_beamline_pat. destruct (Nat.eqb_spec n1 0); [lia|]. destruct (Nat.eqb_spec n2 0); [lia|]. cbn [orb].
  destruct (find_pair _ _ _ _ _ _ _ _ _ _) as [[i|] [j|]]; eauto.
Qed.

(** excluding a frame that does not match changes nothing *)
Lemma except_same pat e n l i : (forall f, nth_error l e = Some f -> pmatch pat (frame_id f) = false) ->
  (nth_match (by_name_except pat e) n l i <-> nth_match (by_name pat) n l i).
Proof.
  intros H. assert (Hh : forall j, holds (by_name_except pat e) l j = holds (by_name pat) l j).
  { intros j. unfold holds, by_name_except, by_name. destruct (nth_error l j) as [f|] eqn:Ef; [|reflexivity].
    destruct (Nat.eqb_spec j e) as [->|]; [rewrite (H f Ef); reflexivity|apply andb_true_r]. }
  unfold nth_match. rewrite Hh, (filter_ext _ _ Hh). reflexivity.
Qed.

(** * indexes *)
Lemma index_matches_spec pat : forall fs n0,
  StronglySorted lt (index_matches pat n0 fs) /\
  forall i, In i (index_matches pat n0 fs) <-> exists k f c, i = (n0 + k)%nat /\ nth_error fs k = Some f
    /\ fcomp f = Some c /\ pmatch pat (qualified c) = true.
Proof.
  induction fs as [|f fs IH]; intros n0.
  - simpl. split; [constructor|]. intros i. split; [intros []|]. intros (k & f & c & _ & H & _). destruct k; discriminate.
  - destruct (IH (S n0)) as [Hs Hi].
    assert (Hge : forall i, In i (index_matches pat (S n0) fs) -> (S n0 <= i)%nat).
    { intros i H. apply Hi in H. destruct H as (k & _ & _ & -> & _). lia. }
    assert (Hskip : forall i, In i (index_matches pat (S n0) fs) <-> exists k g c, i = (n0 + S k)%nat /\ nth_error fs k = Some g
        /\ fcomp g = Some c /\ pmatch pat (qualified c) = true).
    { intros i. rewrite Hi. split; intros (k & g & c & E & R); exists k, g, c; (split; [lia|exact R]). }
    assert (Hall : forall i (head : Prop), (head <-> exists c, i = n0 /\ fcomp f = Some c /\ pmatch pat (qualified c) = true) ->
       (head \/ In i (index_matches pat (S n0) fs)) <-> exists k g c, i = (n0 + k)%nat /\ nth_error (f :: fs) k = Some g
        /\ fcomp g = Some c /\ pmatch pat (qualified c) = true).
    { intros i head Hh. rewrite Hskip, Hh. split.
      - intros [(c & -> & H)|(k & g & c & H)].
        + exists O, f, c. rewrite Nat.add_0_r. auto.
        + exists (S k), g, c. exact H.
      - intros ([|k] & g & c & E & Eg & R).
        + left. simpl in Eg. injection Eg as <-. exists c. rewrite Nat.add_0_r in E. auto.
        + right. exists k, g, c. auto. }
    cbn [index_matches]. destruct (fcomp f) as [c|] eqn:Ec; [destruct (pmatch pat (qualified c)) eqn:Em|].
    + split.
      * constructor; [exact Hs|]. rewrite Forall_forall. intros x Hx. apply Hge in Hx. lia.
      * intros i. cbn [In]. apply Hall. split.
        -- intros <-. exists c. auto.
        -- intros (c' & -> & _). reflexivity.
    + split; [exact Hs|]. intros i. rewrite <- (Hall i False); [tauto|]. split; [intros []|].
      intros (c' & _ & E & R). congruence.
    + split; [exact Hs|]. intros i. rewrite <- (Hall i False); [tauto|]. split; [intros []|].
      intros (c' & _ & E & R). congruence.
Qed.

(** * extraction *)
Lemma extract_loop_ok pat : forall l, Forall (fun f => fcomp f <> None) l ->
  extract_loop pat l = Ok (filter (fun f => pmatch pat (frame_id f)) l).
Proof.
  induction 1 as [|f l Hf _ IH]; simpl; [reflexivity|]. unfold frame_id at 1. destruct (fcomp f) as [c|]; [|congruence].
  rewrite IH. reflexivity.
Qed.
Lemma extract_loop_bad pat : forall l, Exists (fun f => fcomp f = None) l -> extract_loop pat l = Throw BadComponent.
Proof.
  induction 1 as [f l Hf|f l _ IH]; simpl; [rewrite Hf; reflexivity|].
  destruct (fcomp f); [|reflexivity]. rewrite IH. reflexivity.
Qed.

(** * installing *)
Local Open Scope R_scope.
Lemma find_at_spec : forall l at_ s i, Forall (fun f => fcomp f <> None) l -> 
  match find_at l at_ s i with
  | Ok (j, c, s') => exists pre f post, l = pre ++ f :: post /\ j = (i + length pre)%nat /\ fcomp f = Some c
       /\ s' = s + total_len pre + clen c /\ at_ < s'
       /\ (forall p q, pre = p ++ q -> p <> [] -> s + total_len p <= at_)
  | Throw e => e = OutOfRangeAt /\ (forall p q, l = p ++ q -> p <> [] -> s + total_len p <= at_)
  | UB => False
  end.
Proof.
  induction l as [|f l IH]; intros at_ s i Hc; cbn [find_at].
  - split; [reflexivity|]. intros p q E. destruct p; [congruence|discriminate].
  - inversion Hc as [|? ? Hf Hc']; subst. destruct (fcomp f) as [c|] eqn:Ec; [|congruence].
    cbv zeta. destruct (Rltb_spec at_ (s + clen c)) as [Hlt|Hge].
    + exists [], f, l. simpl. rewrite Rplus_0_r, Nat.add_0_r. repeat split; auto.
      intros p q E Hp. destruct p; [congruence|discriminate].
    + specialize (IH at_ (s + clen c) (S i) Hc').
      assert (Hfl : frame_len f = clen c) by (unfold frame_len; rewrite Ec; reflexivity).
      destruct (find_at l at_ (s + clen c) (S i)) as [[[j c'] s']|e|].
      * destruct IH as (pre & g & post & -> & -> & Eg & Es & Hs & Hp). exists (f :: pre), g, post.
        simpl. rewrite Hfl. repeat split; auto; try lia; try lra.
        intros p q E Hne. destruct p as [|a p]; [congruence|]. simpl in E. injection E as <- E. simpl. rewrite Hfl.
        destruct p as [|b p]; [simpl; lra|]. specialize (Hp (b :: p) q E ltac:(discriminate)). lra.
      * destruct IH as [-> Hp]. split; [reflexivity|]. intros p q E Hne. destruct p as [|a p]; [congruence|].
        simpl in E. injection E as <- E. simpl. rewrite Hfl. destruct p as [|b p]; [simpl; lra|].
        specialize (Hp (b :: p) q E ltac:(discriminate)). lra.
      * destruct IH.
Qed.

Lemma total_len_app a b : total_len (a ++ b) = total_len a + total_len b.
Proof. unfold total_len. induction a as [|x a IH]; simpl; [lra|]. rewrite IH. lra. Qed.

Lemma firstn_exact {A} (a b : list A) : firstn (length a) (a ++ b) = a.
Proof. induction a; simpl; [destruct b; reflexivity|congruence]. Qed.
Lemma skipn_exact {A} (a b : list A) : skipn (length a) (a ++ b) = b.
Proof. induction a; simpl; auto. Qed.

(** * construction *)
Definition open_leaves (s : list (nat * list ftree)) : list cframe :=
  flat_map (fun x => flat_map leaves (snd x)) (rev s).

Lemma open_leaves_cons x s : open_leaves (x :: s) = open_leaves s ++ flat_map leaves (snd x).
Proof. unfold open_leaves. simpl. rewrite flat_map_app. simpl. rewrite app_nil_r. reflexivity. Qed.

Lemma same_refl f : same_frame f f. Proof. repeat split. Qed.
Lemma same_idx n f : same_frame (set_idx n f) f. Proof. repeat split. Qed.

(** state reached from [new_model] by [cs], [d] frames being open *)
Record reached (k : constr) (d : nat) (app : list cframe) : Prop := {
  r_live : live k = true;
  r_depth : length (stack k) = S d;
  r_flat : Forall2 same_frame (flat k) app;
  r_leaves : flat k = open_leaves (stack k) }.

Lemma append_top_ok t s : s <> [] -> exists s', append_top t s = Ok s' /\ length s' = length s
  /\ open_leaves s' = open_leaves s ++ leaves t.
Proof.
  destruct s as [|[i subs] s]; [congruence|]. intros _. eexists. split; [reflexivity|]. split; [reflexivity|].
  rewrite !open_leaves_cons. simpl. rewrite flat_map_app. simpl. rewrite app_nil_r, app_assoc. reflexivity.
Qed.

Lemma acf_reached k d app f : reached k d app ->
  exists k', append_component_frame f k = Ok k' /\ reached k' d (app ++ [f])
   /\ flat k' = flat k ++ [set_idx (length (flat k)) f].
Proof.
  intros [H1 H2 H3 H4]. unfold append_component_frame. rewrite H1. cbn [negb].
  destruct (append_top_ok (FComp (set_idx (length (flat k)) f)) (stack k)) as (s' & -> & E2 & E3).
  { intros E. rewrite E in H2. discriminate. }
  cbn [bind]. eexists. split; [reflexivity|]. split; [|reflexivity]. constructor; cbn [live stack flat].
  - reflexivity.
  - lia.
  - apply Forall2_app; [exact H3|]. constructor; [apply same_idx|constructor].
  - rewrite E3, <- H4. reflexivity.
Qed.

Lemma call_reached c k d app d' : reached k d app -> nested d [c] = Some d' ->
  exists k', do_call c k = Ok k' /\ reached k' d' (app ++ appended c).
Proof.
  intros H Hn. destruct c as [id| |f idd dd|f|id dd|t]; simpl in Hn; simpl do_call; simpl appended.
  - injection Hn as <-. destruct H as [H1 H2 H3 H4]. unfold new_frame. rewrite H1. cbn [negb]. eexists. split; [reflexivity|].
    rewrite app_nil_r. constructor; cbn [live stack flat]; auto.
    + simpl. lia.
    + rewrite open_leaves_cons. simpl. rewrite app_nil_r. exact H4.
  - destruct d as [|d]; [discriminate|]. injection Hn as <-. destruct H as [H1 H2 H3 H4]. unfold end_frame.
    destruct (stack k) as [|[i subs] s] eqn:Es; [discriminate|]. simpl in H2.
    destruct (append_top_ok (FSeq i subs) s) as (s' & -> & E2 & E3).
    { intros ->. simpl in H2. lia. }
    cbn [bind]. eexists. split; [reflexivity|]. rewrite app_nil_r. constructor; cbn [live stack flat]; auto.
    + lia.
    + rewrite E3. rewrite open_leaves_cons in H4. exact H4.
  - injection Hn as <-. unfold append_component. destruct (fequal dd 0).
    + cbn [bind]. destruct (acf_reached k d app f H) as (k' & E & Hr & _). eauto.
    + unfold append_drift. destruct (acf_reached k d app (drift_frame idd dd) H) as (k1 & E1 & Hr1 & _). rewrite E1. cbn [bind].
      destruct (acf_reached k1 d _ f Hr1) as (k2 & E2 & Hr2 & _). exists k2. split; [exact E2|].
      rewrite <- app_assoc in Hr2. exact Hr2.
  - injection Hn as <-. destruct (acf_reached k d app f H) as (k' & E & Hr & _). eauto.
  - injection Hn as <-. unfold append_drift. destruct (acf_reached k d app (drift_frame id dd) H) as (k' & E & Hr & _). eauto.
  - injection Hn as <-. destruct H as [H1 H2 H3 H4]. unfold append_frame. rewrite H1. cbn [negb].
    destruct (append_top_ok t (stack k)) as (s' & -> & E2 & E3).
    { intros E. rewrite E in H2. discriminate. }
    cbn [bind]. eexists. split; [reflexivity|]. constructor; cbn [live stack flat]; auto.
    + lia.
    + apply Forall2_app; [exact H3|]. clear. induction (leaves t); constructor; auto using same_refl.
    + rewrite E3, <- H4. reflexivity.
Qed.

Lemma nested_cons c cs d : nested d (c :: cs) = match nested d [c] with Some d1 => nested d1 cs | None => None end.
Proof. destruct c; simpl; try reflexivity. destruct d; reflexivity. Qed.

Lemma calls_reached : forall cs k d app d', reached k d app -> nested d cs = Some d' ->
  exists k', do_calls cs k = Ok k' /\ reached k' d' (app ++ flat_map appended cs).
Proof.
  induction cs as [|c cs IH]; intros k d app d' H Hn; simpl do_calls.
  - simpl in Hn. injection Hn as <-. exists k. simpl. rewrite app_nil_r. auto.
  - rewrite nested_cons in Hn. destruct (nested d [c]) as [d1|] eqn:E1; [|discriminate].
    destruct (call_reached c k d app d1 H E1) as (k1 & -> & H1). cbn [bind].
    destruct (IH k1 d1 _ d' H1 Hn) as (k2 & -> & H2). exists k2. split; [reflexivity|].
    simpl. rewrite app_assoc. exact H2.
Qed.

Lemma new_reached : reached new_model 0 [].
Proof. constructor; reflexivity || constructor. Qed.

Lemma nested_none_ub : forall cs k d app, reached k d app -> nested d cs = None ->
  do_calls cs k = UB.
Proof.
  induction cs as [|c cs IH]; intros k d app H Hn; [discriminate|]. rewrite nested_cons in Hn. simpl.
  destruct (nested d [c]) as [d1|] eqn:E1.
  - destruct (call_reached c k d app d1 H E1) as (k1 & -> & H1). cbn [bind]. eapply IH; eauto.
  - destruct c; simpl in E1; try discriminate. destruct d; [|discriminate]. simpl. unfold end_frame.
    destruct H as [_ H2 _ _]. destruct (stack k) as [|[i subs] [|y s]]; simpl in H2; try discriminate. reflexivity.
Qed.

(** indexes, while only components are appended *)
Lemma call_indexed c k d app d' : reached k d app -> nested d [c] = Some d' -> whole_frame c = false ->
  map fidx (flat k) = seq 0 (length (flat k)) ->
  forall k', do_call c k = Ok k' -> map fidx (flat k') = seq 0 (length (flat k')).
Proof.
  intros H Hn Hw Hi.
  assert (Hacf : forall k0 app0 f k', reached k0 d app0 -> map fidx (flat k0) = seq 0 (length (flat k0)) ->
    append_component_frame f k0 = Ok k' -> map fidx (flat k') = seq 0 (length (flat k'))).
  { intros k0 app0 f k' H0 Hi0 E. destruct (acf_reached k0 d app0 f H0) as (k1 & E1 & _ & Ef). rewrite E in E1. injection E1 as <-.
    rewrite Ef, map_app, Hi0, app_length. simpl. rewrite Nat.add_1_r, seq_S. reflexivity. }
  destruct c as [id| |f idd dd|f|id dd|t]; simpl in *; intros k' E; try discriminate.
  - unfold new_frame in E. destruct (negb (live k)); [discriminate|]. injection E as <-. exact Hi.
  - unfold end_frame in E. destruct (stack k) as [|[i subs] s]; [discriminate|]. destruct (append_top _ _); [|discriminate|discriminate].
    injection E as <-. exact Hi.
  - unfold append_component in E. destruct (fequal dd 0); cbn [bind] in E; [eapply Hacf; eauto|].
    unfold append_drift in E. destruct (acf_reached k d app (drift_frame idd dd) H) as (k1 & E1 & Hr1 & _).
    pose proof (Hacf _ _ _ _ H Hi E1). rewrite E1 in E. cbn [bind] in E. eapply Hacf; eauto.
  - eapply Hacf; eauto.
  - eapply Hacf; eauto.
Qed.

Lemma calls_indexed : forall cs k d app d', reached k d app -> nested d cs = Some d' ->
  Forall (fun c => whole_frame c = false) cs -> map fidx (flat k) = seq 0 (length (flat k)) ->
  forall k', do_calls cs k = Ok k' -> map fidx (flat k') = seq 0 (length (flat k')).
Proof.
  induction cs as [|c cs IH]; intros k d app d' H Hn Hw Hi k' E.
  - simpl in E. injection E as <-. exact Hi.
  - rewrite nested_cons in Hn. destruct (nested d [c]) as [d1|] eqn:E1; [|discriminate].
    inversion Hw; subst. destruct (call_reached c k d app d1 H E1) as (k1 & Ec & H1). simpl in E. rewrite Ec in E. cbn [bind] in E.
    eapply IH; [exact H1|exact Hn|assumption| |exact E].
    exact (call_indexed c k d app d1 H E1 ltac:(assumption) Hi k1 Ec).
Qed.
