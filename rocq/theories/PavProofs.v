(** Loop invariants for [Pav.v]: the arrays of pavx hold a list of pooled blocks. *)
From Coq Require Import QArith Qround Lqa.
From Verif Require Import Pav.
Open Scope list_scope.

Definition qn (n : nat) : Q := inject_Z (Z.of_nat n).
Definition qsum (l : list Q) : Q := fold_right Qplus 0%Q l.

Lemma qn_add a b : (qn (a + b) == qn a + qn b)%Q.
Proof. unfold qn. rewrite Nat2Z.inj_add, inject_Z_plus. reflexivity. Qed.
Lemma qn_S a : (qn (S a) == 1 + qn a)%Q.
Proof. change (S a) with (1 + a)%nat. rewrite qn_add. reflexivity. Qed.
Lemma qn_0 : (qn 0 == 0)%Q. Proof. reflexivity. Qed.
Lemma qn_nonneg a : (0 <= qn a)%Q.
Proof. unfold qn. change 0%Q with (inject_Z 0). rewrite <- Zle_Qle. lia. Qed.
Lemma qn_pos a : (0 < a)%nat -> (0 < qn a)%Q.
Proof. intros H. unfold qn. change 0%Q with (inject_Z 0). rewrite <- Zlt_Qlt. lia. Qed.
Lemma qsum_app a b : (qsum (a ++ b) == qsum a + qsum b)%Q.
Proof. induction a as [|x a IH]; [change (qsum b == 0 + qsum b)%Q; ring|]. change (x + qsum (a ++ b) == x + qsum a + qsum b)%Q. rewrite IH. ring. Qed.

(** a pooled block: its value is the mean, and every prefix lies above the value *)
Definition blk (m : Q) (b : list Q) : Prop :=
  b <> [] /\ (m * qn (len b) == qsum b)%Q /\ forall p q, b = p ++ q -> (m * qn (len p) <= qsum p)%Q.

Lemma blk_one x : blk x [x].
Proof.
  split; [discriminate|]. split; [change (x * 1 == x + 0)%Q; ring|]. intros [|a [|b p]] q E; cbn in E; [change (x * 0 <= 0)%Q; lra| |discriminate]. injection E as <- _. change (x * 1 <= x + 0)%Q. lra.
Qed.

Lemma qn_len_pos {A} (b : list A) : b <> [] -> (0 < qn (len b))%Q.
Proof. intros H. apply qn_pos. destruct b; [congruence|cbn; lia]. Qed.

Lemma blk_merge m1 b1 m2 b2 m : blk m1 b1 -> blk m2 b2 -> (m2 <= m1)%Q -> (m * qn (len b1 + len b2) == qsum b1 + qsum b2)%Q -> blk m (b1 ++ b2).
Proof.
  intros (N1 & E1 & P1) (N2 & E2 & P2) L E. pose proof (qn_len_pos _ N1) as K1. pose proof (qn_len_pos _ N2) as K2. rewrite qn_add in E.
  assert (A : (m2 <= m)%Q) by (apply (Qmult_le_r _ _ (qn (len b1) + qn (len b2))); [lra|]; nra).
  assert (B : (m <= m1)%Q) by (apply (Qmult_le_r _ _ (qn (len b1) + qn (len b2))); [lra|]; nra).
  split; [destruct b1; [congruence|discriminate]|]. split; [rewrite app_length, qn_add, qsum_app; exact E|].
  intros p q H. apply app_eq_app in H as (r & [[H1 H2]|[H1 H2]]).
  - specialize (P1 p r H1). pose proof (qn_nonneg (len p)). nra.
  - specialize (P2 r q H2). subst p b2. rewrite app_length, qn_add, qsum_app in *. pose proof (qn_nonneg (len q)). pose proof (qn_nonneg (len r)). nra.
Qed.

Lemma pool_value m1 (b1 : list Q) m2 (b2 : list Q) : b1 <> [] -> (m1 * qn (len b1) == qsum b1)%Q -> (m2 * qn (len b2) == qsum b2)%Q ->
  ((m1 + (inject_Z (Z.of_nat (len b2)) / inject_Z (Z.of_nat (len b1 + len b2))) * (m2 - m1)) * qn (len b1 + len b2) == qsum b1 + qsum b2)%Q.
Proof.
  intros N E1 E2. fold (qn (len b2)). fold (qn (len b1 + len b2)%nat). pose proof (qn_len_pos _ N). pose proof (qn_nonneg (len b2)).
  rewrite qn_add. rewrite <- E1, <- E2. field. lra.
Qed.

(** starts of the blocks *)
Fixpoint starts (k : nat) (bs : list (list Q)) : list nat := match bs with [] => [] | b :: bs => k :: starts (k + len b) bs end.
Lemma starts_app k a b : starts k (a ++ b) = starts k a ++ starts (k + len (concat a)) b.
Proof. revert k. induction a as [|x a IH]; intros k; cbn [starts app concat len]; [f_equal; lia|]. rewrite IH, app_length. do 3 f_equal. lia. Qed.
Lemma starts_len k bs : len (starts k bs) = len bs.
Proof. revert k. induction bs; intros k; cbn; congruence. Qed.

Lemma set_nth_app {A} (a : list A) x c v : set_nth (a ++ x :: c) (len a) v = a ++ v :: c.
Proof. induction a as [|y a IH]; [reflexivity|]. cbn [app len set_nth]. rewrite IH. reflexivity. Qed.
Lemma rd_app {A} (a : list A) x c i : i = len a -> rd (a ++ x :: c) i = Ok x.
Proof. intros ->. unfold rd. rewrite nth_error_app2, Nat.sub_diag by lia. reflexivity. Qed.
Lemma wr_app {A} (a : list A) x c v i : i = len a -> wr (a ++ x :: c) i v = Ok (a ++ v :: c).
Proof. intros ->. unfold wr. rewrite (proj2 (Nat.ltb_lt _ _)) by (rewrite app_length; cbn; lia). rewrite set_nth_app. reflexivity. Qed.

Definition rep (n : nat) (bs : list (list Q)) (ms : list Q) (s : pav_state) : Prop :=
  exists ji jl jg, pv_index s = starts 0 bs ++ ji /\ pv_l s = map (@List.length Q) bs ++ jl /\ pv_g s = ms ++ jg /\
    len bs = len ms /\ len (pv_index s) = n /\ len (pv_l s) = n /\ len (pv_g s) = n.

Definition incr (ms : list Q) : Prop := StronglySorted Qlt ms.
Lemma ss_snoc {A} (R : A -> A -> Prop) l x : StronglySorted R l -> Forall (fun y => R y x) l -> StronglySorted R (l ++ [x]).
Proof.
  induction 1 as [|y l H1 IH H2]; intros F; [repeat constructor|]. inversion F; subst. cbn. constructor; [apply IH; assumption|]. apply Forall_app. split; [assumption|repeat constructor; assumption].
Qed.
Lemma ss_snoc_inv {A} (R : A -> A -> Prop) l x : StronglySorted R (l ++ [x]) -> StronglySorted R l /\ Forall (fun y => R y x) l.
Proof.
  induction l as [|y l IH]; intros H; [repeat constructor|]. cbn in H. inversion H as [|? ? H1 H2]; subst. destruct (IH H1) as (A1 & A2). apply Forall_app in H2 as (B1 & B2). inversion B2; subst. split; constructor; assumption.
Qed.
Lemma incr_snoc ms m1 m2 : incr (ms ++ [m1]) -> (m1 < m2)%Q -> incr ((ms ++ [m1]) ++ [m2]).
Proof.
  intros H L. apply ss_snoc; [exact H|]. apply ss_snoc_inv in H as (_ & F). apply Forall_app. split; [|repeat constructor; exact L]. eapply Forall_impl; [|exact F]. cbn. intros a Ha. lra.
Qed.

Lemma F2_snoc_inv {A B} (R : A -> B -> Prop) l x l' : Forall2 R (l ++ [x]) l' -> exists m y, l' = m ++ [y] /\ Forall2 R l m /\ R x y.
Proof.
  intros H. apply Forall2_app_inv_l in H as (m & t & H1 & H2 & ->). inversion H2 as [|? y ? ? H3 H4]; subst. inversion H4; subst. exists m, y. repeat split; assumption.
Qed.
Lemma F2_snoc {A B} (R : A -> B -> Prop) l x m y : Forall2 R l m -> R x y -> Forall2 R (l ++ [x]) (m ++ [y]).
Proof. intros H1 H2. apply Forall2_app; [exact H1|repeat constructor; exact H2]. Qed.

Lemma F2_len {A B} (R : A -> B -> Prop) l m : Forall2 R l m -> len l = len m.
Proof. induction 1; cbn; congruence. Qed.

Lemma pool_ok n : forall ms bs b m s, Forall2 blk ms bs -> blk m b -> incr ms -> rep n (bs ++ [b]) (ms ++ [m]) s ->
  exists bs' b' ms' m' s', pool (fun x => x) (len bs) s = Ok (len bs', s') /\ concat (bs' ++ [b']) = concat (bs ++ [b]) /\
    Forall2 blk (ms' ++ [m']) (bs' ++ [b']) /\ incr (ms' ++ [m']) /\ rep n (bs' ++ [b']) (ms' ++ [m']) s'.
Proof.
  induction ms as [|m1 ms IH] using rev_ind; intros bs b m s F B I R.
  - inversion F; subst. exists [], b, [], m, s. split; [reflexivity|]. split; [reflexivity|]. split; [constructor; [exact B|constructor]|]. split; [repeat constructor|exact R].
  - apply F2_snoc_inv in F as (bs0 & b1 & -> & F & B1). apply ss_snoc_inv in I as I'. destruct I' as (I0 & I1).
    destruct R as (ji & jl & jg & R1 & R2 & R3 & R4 & R5 & R6 & R7).
    rewrite app_length. cbn [len]. rewrite Nat.add_1_r. cbn [pool].
    assert (LM : len ms = len bs0) by (eapply F2_len; exact F).
    rewrite R3. rewrite <- !app_assoc. cbn [app]. rewrite (rd_app ms m1) by (symmetry; exact LM). cbn [bind].
    replace (rd (ms ++ m1 :: m :: jg) (S (len bs0))) with (@Ok Q m).
    2:{ symmetry. change (ms ++ m1 :: m :: jg) with (ms ++ [m1] ++ m :: jg). rewrite app_assoc. apply rd_app. rewrite app_length. cbn. lia. }
    cbn [bind]. destruct (Qle_bool m m1) eqn:C.
    + apply Qle_bool_iff in C. rewrite R2, !map_app, <- !app_assoc. cbn [map app]. rewrite (rd_app (map (@List.length Q) bs0)) by (rewrite map_length; reflexivity). cbn [bind].
      replace (rd (map (@List.length Q) bs0 ++ len b1 :: len b :: jl) (S (len bs0))) with (Ok (len b)).
      2:{ symmetry. change (map (@List.length Q) bs0 ++ len b1 :: len b :: jl) with (map (@List.length Q) bs0 ++ [len b1] ++ len b :: jl). rewrite app_assoc. apply rd_app. rewrite app_length, map_length. cbn. lia. }
      cbn [bind]. rewrite wr_app by (symmetry; exact LM). cbn [bind]. rewrite wr_app by (rewrite map_length; reflexivity). cbn [bind].
      set (m' := (m1 + inject_Z (Z.of_nat (len b)) / inject_Z (Z.of_nat (len b1 + len b)) * (m - m1))%Q).
      assert (BM : blk m' (b1 ++ b)). { eapply blk_merge; [exact B1|exact B|exact C|]. apply pool_value; [apply B1|apply B1|apply B]. }
      edestruct (IH bs0 (b1 ++ b) m' (mk_pav (pv_index s) (map (@List.length Q) bs0 ++ (len b1 + len b)%nat :: len b :: jl) (ms ++ m' :: m :: jg)) F BM I0) as (bs' & b' & ms' & m'' & s' & E & Cc & F' & I' & R').
      * assert (XI : pv_index s = starts 0 (bs0 ++ [b1 ++ b]) ++ (0 + len (concat bs0) + len b1)%nat :: ji).
        { rewrite R1, !starts_app. cbn [starts]. rewrite <- !app_assoc. cbn [app]. rewrite concat_app, app_length. cbn [concat]. rewrite app_nil_r. do 3 f_equal; lia. }
        exists ((0 + len (concat bs0) + len b1)%nat :: ji), (len b :: jl), (m :: jg). cbn [pv_index pv_l pv_g].
        split; [exact XI|]. split; [rewrite map_app, <- app_assoc; cbn [map app]; rewrite app_length; reflexivity|]. split; [rewrite <- app_assoc; reflexivity|].
        split; [rewrite !app_length; cbn; lia|]. split; [exact R5|]. split.
        -- rewrite R2, !map_app, !app_length in R6. cbn [map len] in R6. rewrite app_length, map_length in *. cbn [len]. lia.
        -- rewrite R3, !app_length in R7. cbn [len] in R7. rewrite app_length. cbn [len]. lia.
      * exists bs', b', ms', m'', s'. split; [exact E|]. split; [rewrite Cc, !concat_app; cbn [concat]; rewrite !app_nil_r, app_assoc; reflexivity|]. split; [exact F'|]. split; [exact I'|exact R'].
    + assert (C' : (m1 < m)%Q) by (apply Qnot_le_lt; intros X; apply Qle_bool_iff in X; congruence).
      exists (bs0 ++ [b1]), b, (ms ++ [m1]), m, s. split; [rewrite app_length; cbn [len]; rewrite Nat.add_1_r; reflexivity|]. split; [rewrite <- app_assoc; reflexivity|]. split; [apply F2_snoc; [apply F2_snoc; assumption|assumption]|]. split; [apply incr_snoc; assumption|].
      exists ji, jl, jg. repeat split; assumption.
Qed.

Lemma pav_loop y : forall k, (S k <= len y)%nat -> exists bs b ms m s,
  foldM (pav_turn (fun x => x) y) (0%nat, mk_pav (repeat 0%nat (len y)) (set_nth (repeat 0%nat (len y)) 0 1%nat) (set_nth (repeat 0%Q (len y)) 0 (nth 0 y 0%Q))) (seq 1 k) = Ok (len bs, s) /\
  concat (bs ++ [b]) = firstn (S k) y /\ Forall2 blk (ms ++ [m]) (bs ++ [b]) /\ incr (ms ++ [m]) /\ rep (len y) (bs ++ [b]) (ms ++ [m]) s.
Proof.
  induction k as [|k IH]; intros H.
  - destruct y as [|y0 y]; [cbn in H; lia|]. exists [], [y0], [], y0. eexists. split; [reflexivity|]. cbn [firstn app concat]. split; [reflexivity|]. split; [constructor; [apply blk_one|constructor]|]. split; [repeat constructor|].
    exists (repeat 0%nat (len y)), (repeat 0%nat (len y)), (repeat 0%Q (len y)). cbn. rewrite !repeat_length. repeat split.
  - destruct IH as (bs & b & ms & m & s & E & C & F & I & R); [lia|]. 
    assert (FA : forall (A B : Type) (f : A -> B -> res A) l1 l2 a, foldM f a (l1 ++ l2) = (a' <- foldM f a l1 ;; foldM f a' l2)).
    { clear. intros A B f l1 l2. induction l1 as [|x l1 IH]; intros a; [reflexivity|]. cbn. destruct (f a x); [apply IH|reflexivity]. }
    rewrite seq_S, FA, E. cbn [bind foldM Nat.add]. clear FA E. unfold pav_turn. cbn [fst snd].
    destruct (nth_error y (S k)) as [yk|] eqn:Y; [|apply nth_error_None in Y; lia]. unfold rd at 1. rewrite Y. cbn [bind].
    destruct R as (ji & jl & jg & R1 & R2 & R3 & R4 & R5 & R6 & R7).
    assert (NB : Forall (fun b : list Q => b <> []) (bs ++ [b])). { clear - F. induction F as [|x y l l' H _ IH]; constructor; [apply H|exact IH]. }
    assert (LC : (len (bs ++ [b]) <= len (concat (bs ++ [b])))%nat).
    { clear - NB. induction NB as [|x l H _ IH]; [cbn; lia|]. cbn [concat len]. rewrite app_length. destruct x; [congruence|]. cbn [len]. lia. }
    rewrite C in LC. rewrite firstn_length in LC.
    assert (LL : (len (bs ++ [b]) < len y)%nat) by lia.
    destruct ji as [|i0 ji]; [exfalso; rewrite R1, app_nil_r, starts_len in R5; lia|].
    destruct jl as [|l0 jl]; [exfalso; rewrite R2, app_nil_r, map_length in R6; lia|].
    destruct jg as [|g0 jg]; [exfalso; rewrite R3, app_nil_r in R7; lia|].
    rewrite R1, R2, R3.
    assert (SL : S (len bs) = len (bs ++ [b])) by (rewrite app_length; cbn; lia).
    rewrite !wr_app by (rewrite ?starts_len, ?map_length; lia). cbn [bind]. rewrite SL.
    destruct (pool_ok (len y) (ms ++ [m]) (bs ++ [b]) [yk] yk (mk_pav (starts 0 (bs ++ [b]) ++ S k :: ji) (map (@List.length Q) (bs ++ [b]) ++ 1%nat :: jl) ((ms ++ [m]) ++ yk :: jg)) F (blk_one yk) I) as (bs' & b' & ms' & m' & s' & E & Cc & F' & I' & R').
    + exists ji, jl, jg. cbn [pv_index pv_l pv_g]. rewrite (starts_app 0 (bs ++ [b])), C, firstn_length_le by lia. rewrite (map_app _ (bs ++ [b])), <- !(app_assoc _ [_]). cbn [starts map app len Nat.add].
      rewrite <- !app_assoc in *. cbn [app] in *.
      repeat split; try reflexivity.
      * rewrite !app_length in *. cbn in *. lia.
      * rewrite R1 in R5. rewrite !app_length in *. cbn [len] in *. lia.
      * rewrite R2 in R6. rewrite !app_length in *. cbn [len] in *. lia.
      * rewrite R3 in R7. rewrite !app_length in *. cbn [len] in *. lia.
    + exists bs', b', ms', m', s'. split; [rewrite E; reflexivity|]. split; [|split; [exact F'|split; assumption]].
      rewrite Cc, (concat_app (bs ++ [b])), C. cbn [concat app]. clear - Y. revert y Y. generalize (S k) as j. induction j as [|j IH]; intros [|y0 y] Y; try discriminate Y; [injection Y as ->; reflexivity|]. cbn [nth_error] in Y. rewrite (firstn_cons (S j)), firstn_cons. cbn [app]. rewrite (IH y Y). reflexivity.
Qed.

(** ** the final expansion *)
Lemma firstn_set {A} (g : list A) i v : (i < len g)%nat -> firstn (S i) (set_nth g i v) = firstn i g ++ [v].
Proof. revert i. induction g as [|x g IH]; intros [|i] H; cbn [len] in H; try lia; [reflexivity|]. cbn [set_nth]. rewrite firstn_cons, IH by lia. reflexivity. Qed.
Lemma skipn_set {A} (g : list A) i k v : (i < k)%nat -> skipn k (set_nth g i v) = skipn k g.
Proof. revert i k. induction g as [|x g IH]; intros [|i] [|k] H; try lia; try reflexivity. cbn [set_nth skipn]. apply IH. lia. Qed.
Lemma set_len {A} (a : list A) i v : len (set_nth a i v) = len a.
Proof. revert i. induction a as [|x a IH]; intros [|i]; cbn; congruence. Qed.
Lemma set_nth_read {A} (a : list A) i j v m : nth_error a j = Some m -> v = m -> nth_error (set_nth a i v) j = Some m.
Proof. intros H ->. revert i j H. induction a as [|x a IH]; intros [|i] [|j] H; cbn in *; try discriminate; try assumption; try congruence. apply IH. exact H. Qed.

Lemma spread_ok ci m : forall k g lo, nth_error g ci = Some m -> (lo + k <= len g)%nat -> spread g ci lo (lo + k) = Ok (firstn lo g ++ repeat m k ++ skipn (lo + k) g).
Proof.
  unfold spread. induction k as [|k IH]; intros g lo H L.
  - replace (lo + 0 - lo)%nat with 0%nat by lia. cbn [seq foldM repeat app]. rewrite Nat.add_0_r, firstn_skipn. reflexivity.
  - replace (lo + S k - lo)%nat with (S k) by lia. cbn [seq foldM]. unfold rd, wr. rewrite H. cbn [bind]. rewrite (proj2 (Nat.ltb_lt _ _)) by lia. cbn [bind].
    specialize (IH (set_nth g lo m) (S lo)). replace (S lo + k - S lo)%nat with k in IH by lia. unfold rd, wr in IH. rewrite IH; [|apply set_nth_read; [exact H|reflexivity]|rewrite set_len; lia].
    rewrite firstn_set, skipn_set by lia. rewrite <- app_assoc. cbn [app repeat]. replace (S lo + k)%nat with (lo + S k)%nat by lia. reflexivity.
Qed.

(** the vector that is constant on the blocks *)
Fixpoint steps (ms : list Q) (bs : list (list Q)) : list Q :=
  match ms, bs with m :: ms, b :: bs => repeat m (len b) ++ steps ms bs | _, _ => [] end.
Lemma steps_app ms bs m b : len ms = len bs -> steps (ms ++ [m]) (bs ++ [b]) = steps ms bs ++ repeat m (len b).
Proof. revert bs. induction ms as [|x ms IH]; intros [|c bs] H; try discriminate H; cbn [app steps]; [rewrite app_nil_r; reflexivity|]. rewrite IH by (cbn in H; lia). rewrite app_assoc. reflexivity. Qed.
Lemma steps_len ms bs : len ms = len bs -> len (steps ms bs) = len (concat bs).
Proof. revert bs. induction ms as [|x ms IH]; intros [|c bs] H; try discriminate H; [reflexivity|]. cbn [steps concat]. rewrite !app_length, repeat_length, IH by (cbn in H; lia). reflexivity. Qed.

Lemma concat_len_ge (bs : list (list Q)) : Forall (fun b => b <> []) bs -> (len bs <= len (concat bs))%nat.
Proof. induction 1 as [|x l H _ IH]; [cbn; lia|]. cbn [concat len]. rewrite app_length. destruct x; [congruence|]. cbn [len]. lia. Qed.

Lemma expand_ok : forall ms bs m b idx g jg, Forall (fun b => b <> []) (bs ++ [b]) -> len ms = len bs ->
  (exists ji, idx = starts 0 (bs ++ [b]) ++ ji) -> g = (ms ++ [m]) ++ jg -> (len (concat (bs ++ [b])) <= len g)%nat ->
  expand idx (len bs) (len (concat (bs ++ [b]))) g = Ok (steps (ms ++ [m]) (bs ++ [b]) ++ skipn (len (concat (bs ++ [b]))) g).
Proof.
  induction ms as [|m1 ms IH] using rev_ind; intros bs m b idx g jg N L (ji & I) G LG.
  - destruct bs; [|discriminate L]. cbn [app concat] in *. rewrite app_nil_r in *. apply Forall_inv in N as N0. destruct (len b) as [|k] eqn:LB; [destruct b; [congruence|discriminate]|].
    unfold expand. cbn [len]. subst idx g. cbn [starts rd app nth_error bind]. unfold rd. cbn [nth_error bind].
    pose proof (spread_ok 0 m (S k) (m :: jg) 0 eq_refl) as S. cbn [Nat.add] in S. rewrite S by exact LG. cbn [bind firstn app steps]. rewrite LB, app_nil_r. reflexivity.
  - destruct bs as [|b1 bs _] using rev_ind; [rewrite app_length in L; cbn in L; lia|].
    set (B := bs ++ [b1]) in *. assert (LB : len B = S (len bs)) by (unfold B; rewrite app_length; cbn; lia).
    rewrite (concat_app B) in *. rewrite (app_length (concat B)) in *. cbn [concat] in *. rewrite app_nil_r in *.
    apply Forall_app in N as (NB & Nb). apply Forall_inv in Nb. pose proof (concat_len_ge B NB) as CB.
    destruct b as [|x b']; [congruence|]. set (b := x :: b') in *. assert (LBB : (0 < len b)%nat) by (cbn; lia).
    destruct (len (concat B) + len b)%nat as [|k] eqn:K; [lia|]. rewrite LB. cbn [expand]. rewrite <- LB.
    assert (RI : rd idx (len B) = Ok (len (concat B))). { rewrite I, starts_app. cbn [starts]. rewrite <- app_assoc. cbn [app]. apply rd_app. rewrite starts_len. reflexivity. }
    rewrite RI. cbn [bind]. rewrite <- K. assert (RG : nth_error g (len B) = Some m). { rewrite G, <- app_assoc. rewrite nth_error_app2 by lia. rewrite L, Nat.sub_diag. reflexivity. }
    rewrite (spread_ok (len B) m (len b) g (len (concat B)) RG) by lia. cbn [bind].
    set (g' := firstn (len (concat B)) g ++ repeat m (len b) ++ skipn (len (concat B) + len b) g).
    assert (Lg' : len g' = len g). { unfold g'. rewrite !app_length, firstn_length, repeat_length, skipn_length. lia. }
    assert (G' : g' = (ms ++ [m1]) ++ skipn (len B) g').
    { rewrite <- (firstn_skipn (len B) g') at 1. f_equal. unfold g'. rewrite firstn_app, firstn_firstn, firstn_length. replace (len B - Nat.min (len (concat B)) (len g))%nat with 0%nat by lia. cbn [firstn]. rewrite app_nil_r, Nat.min_l by lia. rewrite G, <- app_assoc, <- L, firstn_app, firstn_all, Nat.sub_diag. cbn [firstn]. apply app_nil_r. }
    specialize (IH bs m1 b1 idx g' (skipn (len B) g') NB). fold B in IH. rewrite IH; [| |exists (len (concat B) :: ji)| |].
    + f_equal. rewrite steps_app by exact L. rewrite <- app_assoc. f_equal. unfold g'. rewrite skipn_app, firstn_length, Nat.min_l by lia. rewrite Nat.sub_diag. cbn [skipn]. rewrite (skipn_all2 (firstn _ _)) by (rewrite firstn_length; lia). reflexivity.
    + rewrite app_length in L. cbn [len] in L. lia.
    + rewrite I, starts_app. cbn [starts]. rewrite <- app_assoc. reflexivity.
    + exact G'.
    + lia.
Qed.

(** ** what pavx returns *)
Theorem pavx_blocks y : y <> [] -> exists bs ms, pavx y = Ok (steps ms bs, map (@List.length Q) bs, ms) /\ concat bs = y /\ Forall2 blk ms bs /\ incr ms.
Proof.
  intros N. unfold pavx, pavx_cast. cbv zeta. destruct y as [|y0 y']; [congruence|]. set (y := y0 :: y') in *. assert (Ly : (0 < len y)%nat) by (cbn; lia).
  unfold assert. rewrite (proj2 (Nat.ltb_lt _ _) Ly). cbn [bind]. change (rd y 0) with (@Ok Q y0). cbn [bind]. unfold wr. rewrite !repeat_length, (proj2 (Nat.ltb_lt _ _) Ly). cbn [bind].
  destruct (pav_loop y (len y - 1) ltac:(lia)) as (bs & b & ms & m & s & E & C & F & I & R). change (nth 0 y 0%Q) with y0 in E. rewrite E. cbn [bind fst snd].
  replace (S (len y - 1)) with (len y) in C by lia. rewrite firstn_all in C. destruct R as (ji & jl & jg & R1 & R2 & R3 & R4 & R5 & R6 & R7).
  assert (NB : Forall (fun b : list Q => b <> []) (bs ++ [b])). { clear - F. induction F as [|x y l l' H _ IH]; constructor; [apply H|exact IH]. }
  assert (LM : len ms = len bs). { rewrite !app_length in R4. cbn in R4. lia. }
  pose proof (expand_ok ms bs m b (pv_index s) (pv_g s) jg NB LM (ex_intro _ ji R1) R3) as X. rewrite C in X. rewrite X by lia. cbn [bind].
  exists (bs ++ [b]), (ms ++ [m]). split; [|split; [exact C|split; assumption]]. rewrite skipn_all2, app_nil_r by lia. rewrite R2, R3.
  assert (S1 : S (len bs) = len (map (@List.length Q) (bs ++ [b]))) by (rewrite map_length, app_length; cbn; lia). assert (S2 : S (len bs) = len (ms ++ [m])) by (rewrite app_length; cbn; lia).
  do 2 f_equal; [f_equal|].
  - rewrite S1, firstn_app, firstn_all, Nat.sub_diag. cbn [firstn]. apply app_nil_r.
  - rewrite S2, firstn_app, firstn_all, Nat.sub_diag. cbn [firstn]. apply app_nil_r.
Qed.
