From Verif Require Import RBase Rot Frames FramesSpec.
From Coq Require Import Lia.
Local Open Scope R_scope.

Lemma frame_ind2 (P : frame -> Prop) :
  (forall i s t g, P (Leaf i s t g)) ->
  (forall i s t om l c subs, Forall P subs -> P (Seq i s t om l c subs)) ->
  forall f, P f.
Proof.
  intros HL HS. fix F 1. intros [i s t g | i s t om l c subs].
  - apply HL.
  - apply HS. induction subs as [| x subs IH]; constructor; [apply F | exact IH].
Qed.

Definition sumlen (l : list frame) : R := fold_right (fun x a => flength x + a) 0 l.

Fixpoint sized (f : frame) : Prop :=
  match f with
  | Leaf _ _ _ _ => True
  | Seq _ _ _ _ l _ subs =>
      l = sumlen subs /\
      (fix all (l : list frame) : Prop := match l with [] => True | x :: l' => sized x /\ all l' end) subs
  end.

Lemma sized_seq : forall i s t om l c subs,
  sized (Seq i s t om l c subs) <-> l = sumlen subs /\ Forall sized subs.
Proof.
  intros. cbn [sized].
  assert (E : (fix all (l0 : list frame) : Prop :=
     match l0 with [] => True | x :: l' => sized x /\ all l' end) subs <-> Forall sized subs).
  { clear. induction subs as [| x subs IH]; split; intros H.
    - constructor.
    - exact I.
    - destruct H as [H1 H2]. constructor; [exact H1 | apply IH, H2].
    - inversion H; subst. split; [assumption | apply IH; assumption]. }
  rewrite E. reflexivity.
Qed.

Lemma sumlen_app : forall a b, sumlen (a ++ b) = sumlen a + sumlen b.
Proof. unfold sumlen. induction a as [| x a IH]; intros b; cbn; [ring | rewrite IH; ring]. Qed.

Lemma built_sized : forall f, built f -> sized f.
Proof.
  induction 1.
  - exact I.
  - apply sized_seq. split; [reflexivity | constructor].
  - apply sized_seq in IHbuilt1 as [E F]. apply sized_seq. split.
    + rewrite sumlen_app, E. cbn. ring.
    + apply Forall_app. split; [exact F | constructor; [assumption | constructor]].
Qed.

Lemma sum_app : forall a b : list R,
  fold_right Rplus 0 (a ++ b) = fold_right Rplus 0 a + fold_right Rplus 0 b.
Proof. induction a as [| x a IH]; intros b; cbn; [ring | rewrite IH; ring]. Qed.

Lemma total_length_seq : forall i s t om l c x subs,
  total_length (Seq i s t om l c (x :: subs)) =
  total_length x + total_length (Seq i s t om l c subs).
Proof. intros. unfold total_length. cbn [leaf_lengths flat_map]. apply sum_app. Qed.

Lemma sized_length : forall f, sized f -> flength f = total_length f.
Proof.
  induction f as [i s t g | i s t om l c subs IH] using frame_ind2; intros H.
  - unfold total_length. cbn. ring.
  - apply sized_seq in H as [-> F]. cbn [flength].
    assert (G : forall l, sumlen subs = total_length (Seq i s t om l c subs)).
    { intros l. induction subs as [| x subs IH2].
      - reflexivity.
      - inversion IH; subst. inversion F; subst. rewrite total_length_seq, <- IH2 by assumption.
        cbn. rewrite H1 by assumption. reflexivity. }
    apply G.
Qed.

Lemma built_fresh : forall f, built f -> fpos f = 0.
Proof. induction 1; [reflexivity | reflexivity | exact IHbuilt1]. Qed.

(* ConsolidateConstruction keeps everything but positions and caches. *)
Fixpoint place (l l' : list frame) (s : R) : Prop :=
  match l, l' with
  | [], [] => True
  | x :: r, x' :: r' =>
      let p := s - fst (fextent x) in
      (exists y, consolidate x = Ok y /\ x' = set_pos p y) /\ place r r' (p + snd (fextent x))
  | _, _ => False
  end.

Lemma consolidate_seq : forall i s t om len c subs f',
  consolidate (Seq i s t om len c subs) = Ok f' ->
  exists subs' c', f' = Seq i s t om len (Some c') subs' /\
    place subs subs' (seq_start om len) /\ calc_cache om len c subs' = Ok c'.
Proof.
  intros i s t om len c subs f' H. cbn [consolidate] in H.
  set (go := fix go (l : list frame) (s : R) : res gerr (list frame) := _) in H.
  destruct (go subs (seq_start om len)) as [subs' | |] eqn:G; [| discriminate ..].
  cbn [bind] in H. destruct (calc_cache om len c subs') as [c' | |] eqn:K; [| discriminate ..].
  cbn [bind] in H. injection H as <-. exists subs', c'. split; [reflexivity |]. split; [| exact K].
  clear K. revert subs' G. generalize (seq_start om len).
  induction subs as [| x subs IH]; intros a subs' G.
  - cbn in G. injection G as <-. exact I.
  - cbn [go] in G. cbv zeta in G. destruct (consolidate x) as [x' | |] eqn:X; [| discriminate ..].
    cbn [bind] in G. fold go in G.
    destruct (go subs _) as [r | |] eqn:R1; [| discriminate ..]. cbn [bind] in G.
    injection G as <-. cbn [place]. split.
    + exists x'. auto.
    + apply IH. exact R1.
Qed.

Lemma consolidate_keeps : forall f f', consolidate f = Ok f' ->
  fident f' = fident f /\ fpos f' = fpos f /\ floc f' = floc f /\
  flength f' = flength f /\ fextent f' = fextent f.
Proof.
  intros [i s t g | i s t om l c subs] f' H.
  - cbn in H. injection H as <-. auto.
  - apply consolidate_seq in H as (subs' & c' & -> & _ & _). auto.
Qed.

Lemma set_pos_keeps : forall p f,
  fident (set_pos p f) = fident f /\ flength (set_pos p f) = flength f /\
  fextent (set_pos p f) = fextent f /\ fpos (set_pos p f) = p.
Proof. intros p []; cbn; auto. Qed.

Lemma extent_length : forall f, snd (fextent f) - fst (fextent f) = flength f.
Proof.
  intros [i s t [l | l h | o |] | i s t [] l c subs]; cbn; try lra.
Qed.

(* Position of the innermost frame of a chain, 0 for the empty one. *)
Definition posof (up : chain) (P : R) : Prop :=
  match up with [] => P = 0 | _ => get_position up None = Ok P end.

Lemma posof_cons : forall i q up P, posof up P -> posof ((i, q) :: up) (q + P).
Proof.
  intros i q up P H. destruct up as [| u up]; cbn in H.
  - subst. cbn. f_equal. ring.
  - unfold posof. cbn [get_position is_super]. cbn [negb].
    change (match u :: up with [] => true | _ :: _ => false end) with false. cbn [negb].
    replace (is_super None (u :: up)) with false by reflexivity.
    rewrite H. reflexivity.
Qed.

Definition total_of (l : list frame) : R := fold_right (fun x a => total_length x + a) 0 l.

Fixpoint expected_list (l : list frame) (a : R) : list (nat * R * R) :=
  match l with [] => [] | x :: l' => expected a x ++ expected_list l' (a + total_length x) end.
Fixpoint reported_list (l : list frame) (up : chain) : list (res gerr (nat * R * R)) :=
  match l with [] => [] | x :: l' => reported x up ++ reported_list l' up end.

Lemma expected_seq : forall i s t om l c subs a,
  expected a (Seq i s t om l c subs) =
  (i, a, a + total_length (Seq i s t om l c subs)) :: expected_list subs a.
Proof.
  reflexivity.
Qed.
Lemma reported_seq : forall i s t om l c subs up,
  reported (Seq i s t om l c subs) up =
  (do e <- get_extent (Seq i s t om l c subs) up None; Ok (i, fst e, snd e)) ::
  reported_list subs ((i, s) :: up).
Proof.
  intros. cbn [reported fident]. f_equal. induction subs as [| x subs IH]; [reflexivity |].
  cbn [reported_list]. rewrite <- IH. reflexivity.
Qed.

Lemma head_reported : forall f up P q a, posof up P -> sized f ->
  q + P + fst (fextent f) = a ->
  (do e <- get_extent (set_pos q f) up None; Ok (fident (set_pos q f), fst e, snd e))
  = Ok (fident f, a, a + total_length f).
Proof.
  intros f up P q a HP HS HA. unfold get_extent.
  destruct (set_pos_keeps q f) as (-> & _ & -> & ->).
  pose proof (posof_cons (fident f) q up P HP) as E. unfold posof in E. rewrite E.
  cbn [bind fst snd]. do 2 f_equal; [f_equal |].
  - lra.
  - pose proof (extent_length f). rewrite <- (sized_length f HS). lra.
Qed.

Lemma total_length_leaflist : forall f f' : frame,
  leaf_lengths f = leaf_lengths f' -> total_length f = total_length f'.
Proof. intros f f' H. unfold total_length. rewrite H. reflexivity. Qed.

Lemma layout : forall f f', sized f -> consolidate f = Ok f' ->
  forall up P q a, posof up P -> q + P + fst (fextent f) = a ->
  reported (set_pos q f') up = map Ok (expected a f).
Proof.
  induction f as [i s t g | i s t om l c subs IH] using frame_ind2;
    intros f' HS HC up P q a HP HA.
  - cbn in HC. injection HC as <-. cbn [reported expected map set_pos].
    pose proof (head_reported (Leaf i s t g) up P q a HP HS HA) as E.
    cbn [set_pos fident] in E. cbn [fident]. rewrite E.
    f_equal. unfold total_length. cbn. do 2 f_equal. ring.
  - apply consolidate_seq in HC as (subs' & c' & -> & PL & _).
    pose proof HS as HS0. apply sized_seq in HS as [EL FS].
    cbn [set_pos]. rewrite reported_seq, expected_seq. cbn [map].
    pose proof (head_reported (Seq i s t om l c subs) up P q a HP HS0 HA) as E.
    assert (E' : (do e <- get_extent (Seq i q t om l (Some c') subs') up None;
                  Ok (i, fst e, snd e))
       = Ok (i, a, a + total_length (Seq i s t om l c subs))) by exact E.
    rewrite E'. f_equal. clear E E'.
    pose proof (posof_cons i q up P HP) as HP'.
    assert (A : seq_start om l + (q + P) = a).
    { rewrite <- HA. cbn. destruct om; cbn; ring. }
    clear HA HS0 EL. revert subs' PL A. generalize (seq_start om l). intros z. revert z a.
    induction subs as [| x subs IHs]; intros z a [| x' subs'] PL A; try contradiction.
    + reflexivity.
    + cbn [place] in PL. cbv zeta in PL. destruct PL as ((y & Y & ->) & PL).
      inversion IH; subst. inversion FS; subst.
      cbn [reported_list expected_list]. rewrite map_app. f_equal.
      * eapply H1; [assumption | exact Y | exact HP' |]. lra.
      * eapply IHs; [assumption | assumption | exact PL |].
        rewrite <- (sized_length x) by assumption.
        pose proof (extent_length x). lra.
Qed.

(* GetPosition in any enclosing frame. *)

Lemma position_sum : forall pre j sj up, pre <> [] -> ~ In j (map fst pre) ->
  exists p, get_position (pre ++ (j, sj) :: up) (Some j) = Ok p /\
    p = fold_right (fun x a => snd x + a) 0 pre.
Proof.
  induction pre as [| [i s] pre IH]; intros j sj up NE NI; [congruence |].
  cbn [app get_position].
  destruct pre as [| [k sk] pre].
  - cbn [app is_super]. rewrite Nat.eqb_refl.
    cbn. rewrite orb_true_r. cbn. eexists. split; [reflexivity | cbn; ring].
  - cbn [app is_super]. replace (Nat.eqb k j) with false.
    2: { symmetry. apply Nat.eqb_neq. intros ->. apply NI. cbn. auto. }
    rewrite orb_true_r. cbn [negb].
    destruct (IH j sj up) as (p & Hp & Ep).
    { discriminate. } { intros H. apply NI. cbn in *. tauto. }
    cbn [app] in Hp. rewrite Hp. cbn [bind]. eexists. split; [reflexivity |].
    cbn in *. lra.
Qed.
