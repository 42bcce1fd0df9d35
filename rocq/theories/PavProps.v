(** C36: isotonic regression. *)
From Coq Require Import QArith Qround Lqa.
From Verif Require Import Pav PavProofs.
Open Scope list_scope.

(** squared error between two vectors, and non-decreasing vectors *)
Definition sse (y g : list Q) : Q := qsum (zip_with (fun a b => (a - b) * (a - b))%Q y g).
Definition nondecreasing (g : list Q) : Prop := forall i j a b, (i <= j)%nat -> nth_error g i = Some a -> nth_error g j = Some b -> (a <= b)%Q.
Definition pointwise (a b : list Q) : Prop := Forall2 Qeq a b.

Lemma nd_app a b : nondecreasing (a ++ b) -> nondecreasing a /\ nondecreasing b /\ forall x z, In x a -> In z b -> (x <= z)%Q.
Proof.
  intros H. split; [|split].
  - intros i j x z L H1 H2. apply (H i j); [exact L| |]; rewrite nth_error_app1; try assumption; apply nth_error_Some; congruence.
  - intros i j x z L H1 H2. apply (H (len a + i)%nat (len a + j)%nat); [lia| |]; (rewrite nth_error_app2 by lia); rewrite Nat.add_comm, Nat.add_sub; assumption.
  - intros x z Hx Hz. apply In_nth_error in Hx as (i & Hi). apply In_nth_error in Hz as (j & Hj). apply (H i (len a + j)%nat).
    + assert (i < len a)%nat by (apply nth_error_Some; congruence). lia.
    + rewrite nth_error_app1; [exact Hi|apply nth_error_Some; congruence].
    + rewrite nth_error_app2 by lia. rewrite Nat.add_comm, Nat.add_sub. exact Hj.
Qed.

Lemma zip_with_app {A B C} (f : A -> B -> C) a1 b1 a2 b2 : len a1 = len b1 -> zip_with f (a1 ++ a2) (b1 ++ b2) = zip_with f a1 b1 ++ zip_with f a2 b2.
Proof. revert b1. induction a1 as [|x a1 IH]; intros [|z b1] H; try discriminate H; [reflexivity|]. cbn. rewrite IH by (cbn in H; lia). reflexivity. Qed.
Lemma sse_app a1 b1 a2 b2 : len a1 = len b1 -> (sse (a1 ++ a2) (b1 ++ b2) == sse a1 b1 + sse a2 b2)%Q.
Proof. intros H. unfold sse. rewrite zip_with_app by exact H. apply qsum_app. Qed.
Lemma sse_cons a b l l' : (sse (a :: l) (b :: l') == (a - b) * (a - b) + sse l l')%Q.
Proof. reflexivity. Qed.
Lemma sq_nonneg (x : Q) : (0 <= x * x)%Q.
Proof. nra. Qed.
Lemma sse_nonneg a b : (0 <= sse a b)%Q.
Proof. revert b. induction a as [|x a IH]; intros [|z b]; try apply Qle_refl. rewrite sse_cons. specialize (IH b). pose proof (sq_nonneg (x - z)). lra. Qed.
Lemma sse_zero a b : len a = len b -> (sse a b <= 0)%Q -> pointwise a b.
Proof.
  revert b. induction a as [|x a IH]; intros [|z b] L H; try discriminate L; [constructor|]. rewrite sse_cons in H. pose proof (sse_nonneg a b). constructor.
  - assert (E : ((x - z) * (x - z) == 0)%Q) by (pose proof (sq_nonneg (x - z)); lra). apply Qmult_integral in E. lra.
  - apply IH; [cbn in L; lia|pose proof (sq_nonneg (x - z)); lra].
Qed.

(** the cross term of a block *)
Definition cross (m : Q) (b c : list Q) : Q := qsum (zip_with (fun x z => (x - m) * z)%Q b c).
Lemma cross_app m b1 c1 b2 c2 : len b1 = len c1 -> (cross m (b1 ++ b2) (c1 ++ c2) == cross m b1 c1 + cross m b2 c2)%Q.
Proof. intros H. unfold cross. rewrite zip_with_app by exact H. apply qsum_app. Qed.

Lemma abel m : forall b c z, len c = len b -> (forall p q, b = p ++ q -> (m * qn (len p) <= qsum p)%Q) -> nondecreasing c -> (forall x, In x c -> (x <= z)%Q) ->
  (cross m b c <= (qsum b - m * qn (len b)) * z)%Q.
Proof.
  induction b as [|x b IH] using rev_ind; intros c z L P N B.
  - destruct c; [|discriminate L]. change (0 <= (0 - m * 0) * z)%Q. nra.
  - destruct c as [|w c _] using rev_ind; [rewrite app_length in L; cbn in L; lia|]. rewrite !app_length in L. cbn [len] in L.
    apply nd_app in N as (N1 & _ & N2). rewrite cross_app by lia.
    assert (I : (cross m b c <= (qsum b - m * qn (len b)) * w)%Q).
    { apply IH; [lia| |exact N1|intros v Hv; apply N2; [exact Hv|left; reflexivity]]. intros p q E. apply (P p (q ++ [x])). rewrite E, app_assoc. reflexivity. }
    assert (T : (m * qn (len (b ++ [x])) <= qsum (b ++ [x]))%Q) by (apply (P (b ++ [x]) []); rewrite app_nil_r; reflexivity).
    assert (W : (w <= z)%Q) by (apply B, in_or_app; right; left; reflexivity).
    rewrite app_length, qn_add, qsum_app in *. change (cross m [x] [w]) with ((x - m) * w + 0)%Q. change (qsum [x]) with (x + 0)%Q in *. change (qn (len [x])) with 1%Q in *.
    set (Sb := qsum b) in *. set (nb := qn (len b)) in *. set (cr := cross m b c) in *. clearbody Sb nb cr. clear - I T W. nra.
Qed.

Lemma sse_block m b c : blk m b -> nondecreasing c -> len c = len b -> (sse b (repeat m (len b)) + sse (repeat m (len b)) c <= sse b c)%Q.
Proof.
  intros (NE & M & P) N L.
  assert (C : (cross m b c <= 0)%Q).
  { destruct (Nat.eq_dec (len c) 0) as [Z|Z]; [destruct b; [congruence|cbn in L; lia]|].
    destruct (nth_error c (len c - 1)) as [z|] eqn:Hz; [|apply nth_error_None in Hz; lia].
    assert (X := abel m b c z L P N). rewrite <- M in X. assert (XX : forall x, In x c -> (x <= z)%Q). { intros x Hx. apply In_nth_error in Hx as (i & Hi). apply (N i (len c - 1)%nat); [|exact Hi|exact Hz]. assert (i < len c)%nat by (apply nth_error_Some; congruence). lia. } specialize (X XX). lra. }
  assert (E : forall b c, len c = len b -> (sse b c - sse b (repeat m (len b)) - sse (repeat m (len b)) c == - (2 # 1) * cross m b c + (2 # 1) * m * (qsum b - m * qn (len b)))%Q).
  { clear. induction b as [|x b IH]; intros [|z c] L; try discriminate L; [change (0 - 0 - 0 == - (2 # 1) * 0 + (2 # 1) * m * (0 - m * 0))%Q; ring|]. cbn [len repeat]. rewrite !sse_cons. specialize (IH c ltac:(cbn in L; lia)).
    change (cross m (x :: b) (z :: c)) with ((x - m) * z + cross m b c)%Q. change (qsum (x :: b)) with (x + qsum b)%Q. rewrite qn_S.
    set (s1 := sse b c) in *. set (s2 := sse b (repeat m (len b))) in *. set (s3 := sse (repeat m (len b)) c) in *. set (cr := cross m b c) in *. set (sb := qsum b) in *. set (nb := qn (len b)) in *. clearbody s1 s2 s3 cr sb nb.
    assert (R : (s1 == s2 + s3 + (- (2 # 1) * cr + (2 # 1) * m * (sb - m * nb)))%Q) by lra. rewrite R. ring. }
  specialize (E b c L). rewrite M in E. assert (Z : ((2 # 1) * m * (qsum b - qsum b) == 0)%Q) by ring. lra.
Qed.

Lemma sse_blocks ms bs : Forall2 blk ms bs -> forall g, nondecreasing g -> len g = len (concat bs) ->
  (sse (concat bs) (steps ms bs) + sse (steps ms bs) g <= sse (concat bs) g)%Q.
Proof.
  induction 1 as [|m b ms bs B F IH]; intros g N L.
  - destruct g; [|discriminate L]. unfold sse. cbn. lra.
  - cbn [concat steps] in *. rewrite app_length in L. rewrite <- (firstn_skipn (len b) g) in N |- *. set (g1 := firstn (len b) g) in *. set (g2 := skipn (len b) g) in *.
    assert (L1 : len g1 = len b) by (unfold g1; rewrite firstn_length; lia). assert (L2 : len g2 = len (concat bs)) by (unfold g2; rewrite skipn_length; lia).
    apply nd_app in N as (N1 & N2 & _). rewrite !sse_app by (rewrite ?repeat_length; lia). pose proof (sse_block m b g1 B N1 L1). specialize (IH g2 N2 L2). lra.
Qed.

Lemma steps_nth ms bs p v : len ms = len bs -> nth_error (steps ms bs) p = Some v -> exists i, nth_error ms i = Some v /\ (len (concat (firstn i bs)) <= p < len (concat (firstn (S i) bs)))%nat.
Proof.
  revert bs p. induction ms as [|m ms IH]; intros [|b bs] p L H; try discriminate L; [destruct p; discriminate H|]. cbn [steps] in H. destruct (le_lt_dec (len b) p) as [Hp|Hp].
  - rewrite nth_error_app2 in H by (rewrite repeat_length; lia). rewrite repeat_length in H. destruct (IH bs _ ltac:(cbn in L; lia) H) as (i & A & B). exists (S i). split; [exact A|]. rewrite !firstn_cons. cbn [concat]. rewrite !app_length. rewrite firstn_cons in B || idtac. lia.
  - exists 0%nat. rewrite nth_error_app1 in H by (rewrite repeat_length; lia). apply nth_error_In, repeat_spec in H. subst v. split; [reflexivity|]. cbn. rewrite app_nil_r. lia.
Qed.

Lemma concat_firstn_mono (bs : list (list Q)) i j : (i <= j)%nat -> (len (concat (firstn i bs)) <= len (concat (firstn j bs)))%nat.
Proof. revert i j. induction bs as [|b bs IH]; intros i j L; [rewrite !firstn_nil; cbn; lia|]. destruct i; [cbn; lia|]. destruct j; [lia|]. rewrite !firstn_cons. cbn [concat]. rewrite !app_length. specialize (IH i j). lia. Qed.

Lemma ss_nth {A} (R : A -> A -> Prop) l i j a b : StronglySorted R l -> (i < j)%nat -> nth_error l i = Some a -> nth_error l j = Some b -> R a b.
Proof.
  intros H. revert i j. induction H as [|x l H1 IH H2]; intros i j L Ha Hb; [destruct i; discriminate Ha|]. destruct j as [|j]; [lia|]. destruct i as [|i].
  - injection Ha as ->. rewrite Forall_forall in H2. apply H2. eapply nth_error_In. exact Hb.
  - apply (IH i j); [lia|assumption|assumption].
Qed.

Lemma steps_nd ms bs : len ms = len bs -> incr ms -> nondecreasing (steps ms bs).
Proof.
  intros L I p q a b Hpq Ha Hb. apply steps_nth in Ha as (i & Ai & Bi); [|exact L]. apply steps_nth in Hb as (j & Aj & Bj); [|exact L].
  destruct (lt_eq_lt_dec i j) as [[H|H]|H].
  - apply Qlt_le_weak. exact (ss_nth Qlt ms i j a b I H Ai Aj).
  - subst j. rewrite Ai in Aj. injection Aj as ->. apply Qle_refl.
  - exfalso. pose proof (concat_firstn_mono bs (S j) i H). lia.
Qed.

(** pavx cuts the input into blocks; on each block the result is the mean of the inputs (the block's
    height), heights increase strictly, the widths are the block lengths. *)
Theorem C36_pav_blocks : forall y, y <> [] -> exists blocks ghat width height, pavx y = Ok (ghat, width, height) /\
  concat blocks = y /\ (forall b, In b blocks -> b <> []) /\ width = map (@List.length Q) blocks /\ List.length height = List.length blocks /\
  ghat = concat (zip_with (fun h b => repeat h (List.length b)) height blocks) /\
  Forall2 (fun h b => h * inject_Z (Z.of_nat (List.length b)) == fold_right Qplus 0 b)%Q height blocks /\
  StronglySorted Qlt height.
Proof.
  intros y N. destruct (pavx_blocks y N) as (bs & ms & E & C & F & I). exists bs, (steps ms bs), (map (@List.length Q) bs), ms. split; [exact E|]. split; [exact C|].
  split; [intros b Hb; clear - F Hb; induction F as [|m b0 ms bs B F IH]; [destruct Hb|]; destruct Hb as [<-|Hb]; [apply B|apply IH; exact Hb]|]. split; [reflexivity|]. split; [eapply F2_len; exact F|].
  split; [|split; [|exact I]].
  - clear. revert bs. induction ms as [|m ms IH]; intros [|b bs]; try reflexivity. cbn. rewrite IH. reflexivity.
  - clear - F. induction F as [|m b ms bs B F IH]; constructor; [apply B|exact IH].
Qed.
Print Assumptions C36_pav_blocks.

(** The result is non-decreasing and is the unique best non-decreasing fit in the least-squares sense. *)
Theorem C36_pav_optimal : forall y, y <> [] -> exists ghat width height, pavx y = Ok (ghat, width, height) /\ List.length ghat = List.length y /\
  nondecreasing ghat /\
  (forall g, nondecreasing g -> List.length g = List.length y -> (sse y ghat <= sse y g)%Q) /\
  (forall g, nondecreasing g -> List.length g = List.length y -> (sse y g <= sse y ghat)%Q -> pointwise ghat g).
Proof.
  intros y N. destruct (pavx_blocks y N) as (bs & ms & E & C & F & I). exists (steps ms bs), (map (@List.length Q) bs), ms. split; [exact E|]. pose proof (F2_len _ _ _ F) as L.
  assert (LS : len (steps ms bs) = len y) by (rewrite steps_len by exact L; rewrite C; reflexivity).
  split; [exact LS|]. split; [apply steps_nd; assumption|]. split.
  - intros g Ng Lg. pose proof (sse_blocks ms bs F g Ng) as X. rewrite C in X. specialize (X Lg). pose proof (sse_nonneg (steps ms bs) g). lra.
  - intros g Ng Lg Hg. pose proof (sse_blocks ms bs F g Ng) as X. rewrite C in X. specialize (X Lg). apply sse_zero; [lia|lra].
Qed.
Print Assumptions C36_pav_optimal.

Example C36_witness : exists g h, pavx [3; 1; 2; 5; 4]%Q = Ok (g, [3; 2]%nat, h) /\ pointwise g [2; 2; 2; 9 # 2; 9 # 2]%Q.
Proof. eexists _, _. split; [vm_compute; reflexivity|]. repeat constructor. Qed.

(** An empty vector is refused. *)
Theorem C36_empty : pavx [] = Err AssertionError.
Proof. reflexivity. Qed.

(** With an integer input array the means are truncated: the result is not the best fit. *)
Theorem C36_integer_refuted : exists y ghat w h g, pavx_cast int_cast y = Ok (ghat, w, h) /\ nondecreasing g /\ List.length g = List.length y /\ (sse y g < sse y ghat)%Q.
Proof.
  exists [1; 0]%Q. eexists _, _, _, [1 # 2; 1 # 2]%Q. split; [vm_compute; reflexivity|]. split; [|split; [reflexivity|vm_compute; reflexivity]].
  intros [|[|i]] [|[|j]] a b L Ha Hb; cbn in Ha, Hb; try (destruct i; discriminate); try (destruct j; discriminate); injection Ha as <-; injection Hb as <-; apply Qle_refl.
Qed.
Print Assumptions C36_integer_refuted.
