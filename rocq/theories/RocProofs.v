(** The operating points of a pair of score lists, read from the joint sort. *)
From Coq Require Import QArith Lqa.
From Verif Require Import Metrics MetricsSpec SortFacts PavProofs MatProofs.
Open Scope list_scope.
Open Scope nat_scope.

Lemma filter_down {A} (R : A -> A -> Prop) (p : A -> bool) l : StronglySorted R l -> (forall x y, R x y -> p y = true -> p x = true) ->
  filter p l = firstn (len (filter p l)) l.
Proof.
  intros X D. induction X as [|x l X1 IH X2]; [reflexivity|]. cbn [filter]. destruct (p x) eqn:E.
  - cbn [len]. rewrite firstn_cons, <- IH. reflexivity.
  - assert (F : filter p l = []). { rewrite Forall_forall in X2. destruct (filter p l) as [|z r] eqn:Z; [reflexivity|]. assert (Hz : In z (filter p l)) by (rewrite Z; left; reflexivity). apply filter_In in Hz as (Z1 & Z2). rewrite (D x z (X2 z Z1) Z2) in E. discriminate. }
    rewrite F. reflexivity.
Qed.

Lemma filter_perm_len {A} (p : A -> bool) l l' : Permutation l l' -> len (filter p l) = len (filter p l').
Proof. induction 1 as [|x l l' _ IH|x y l|l l' l'' _ IH1 _ IH2]; cbn; [reflexivity|destruct (p x); cbn; lia|destruct (p x), (p y); reflexivity|lia]. Qed.
Lemma filter_filter' {A} (f g : A -> bool) l : filter f (filter g l) = filter (fun x => g x && f x) l.
Proof. induction l as [|x l IH]; [reflexivity|]. cbn. destruct (g x); cbn; [destruct (f x); rewrite IH; reflexivity|exact IH]. Qed.

Lemma filter_positions {A} (p : A -> bool) (pre l post : list A) :
  len (filter (fun i => match nth_error (pre ++ l ++ post) i with Some s => p s | None => false end) (seq (len pre) (len l))) = len (filter p l).
Proof.
  revert pre. induction l as [|x l IH]; intros pre; [reflexivity|]. cbn [len seq filter]. rewrite nth_error_app2, Nat.sub_diag by lia. cbn [app nth_error].
  specialize (IH (pre ++ [x])). rewrite app_length in IH. cbn [len] in IH. rewrite Nat.add_1_r, <- app_assoc in IH. cbn [app] in IH. destruct (p x); cbn [len]; rewrite <- IH; reflexivity.
Qed.

Lemma perm_filter {A} (p : A -> bool) l l' : Permutation l l' -> Permutation (filter p l) (filter p l').
Proof.
  induction 1 as [|x l l' _ IH|x y l|l l' l'' _ IH1 _ IH2]; cbn; [reflexivity|destruct (p x); [constructor|]; exact IH|destruct (p x), (p y); try reflexivity; apply perm_swap|etransitivity; eassumption].
Qed.

Section Roc.
Context {S : Type} `{Ord S}.
Variables tar non : list S.
Let scores := tar ++ non.
Let ii := argsort scores.
Definition is_tar (i : nat) : bool := i <? len tar.

(** targets among the k lowest scores *)
Definition cnt (k : nat) : nat := len (filter is_tar (firstn k ii)).

Lemma ii_len : len ii = len tar + len non.
Proof. unfold ii. rewrite argsort_len. unfold scores. apply app_length. Qed.

Definition rej_at (th : threshold S) (i : nat) : bool := match nth_error scores i with Some s => rejects th s | None => false end.

Lemma rejects_down th (a b : S) : leb a b = true -> rejects th b = true -> rejects th a = true.
Proof. destruct th as [| |t]; cbn; try auto. intros L X. eapply leb_ltb_trans; eassumption. Qed.
Lemma rej_down th i j : before scores i j -> rej_at th j = true -> rej_at th i = true.
Proof.
  intros (a & b & A & B & X). unfold rej_at. rewrite A, B. apply rejects_down. destruct X as [X|[-> _]]; [apply ltb_leb; exact X|apply leb_refl].
Qed.

Lemma rej_prefix th : filter (rej_at th) ii = firstn (len (filter (rej_at th) ii)) ii.
Proof. apply (filter_down (before scores)); [apply argsort_sorted|intros x y; apply rej_down]. Qed.

Lemma rej_counts th : len (filter is_tar (filter (rej_at th) ii)) = len (filter (rejects th) tar) /\
  len (filter (rej_at th) ii) = len (filter (rejects th) tar) + len (filter (rejects th) non).
Proof.
  assert (P : Permutation ii (seq 0 (len tar) ++ seq (len tar) (len non))). { unfold ii. rewrite argsort_perm. unfold scores. rewrite app_length, seq_app. reflexivity. }
  assert (A : len (filter (rej_at th) (seq 0 (len tar))) = len (filter (rejects th) tar)) by (apply (filter_positions (rejects th) [] tar non)).
  assert (B : len (filter (rej_at th) (seq (len tar) (len non))) = len (filter (rejects th) non)). { pose proof (filter_positions (rejects th) tar non []) as X. rewrite app_nil_r in X. exact X. }
  assert (C : filter is_tar (filter (rej_at th) (seq 0 (len tar))) = filter (rej_at th) (seq 0 (len tar))).
  { rewrite filter_filter'. apply filter_ext_in. intros i Hi. apply in_seq in Hi. unfold is_tar. rewrite (proj2 (Nat.ltb_lt _ _)) by lia. apply andb_true_r. }
  assert (D : filter is_tar (filter (rej_at th) (seq (len tar) (len non))) = []).
  { rewrite filter_filter'. match goal with |- ?f = [] => destruct f as [|z r] eqn:Z end; [reflexivity|]. assert (Hz : In z (z :: r)) by (left; reflexivity). rewrite <- Z in Hz. apply filter_In in Hz as (Z1 & Z2). apply in_seq in Z1. apply andb_true_iff in Z2 as (_ & Z2). apply Nat.ltb_lt in Z2. lia. }
  split.
  - rewrite (filter_perm_len is_tar _ _ (perm_filter (rej_at th) _ _ P)), filter_app, filter_app, C, D, app_nil_r. exact A.
  - rewrite (filter_perm_len (rej_at th) _ _ P), filter_app, app_length, A, B. reflexivity.
Qed.

(** every threshold is a cut of the sorted list *)
Lemma threshold_cut th : exists k, k <= len tar + len non /\ cnt k = len (filter (rejects th) tar) /\
  k = cnt k + len (filter (rejects th) non).
Proof.
  exists (len (filter (rej_at th) ii)). destruct (rej_counts th) as (A & B).
  assert (C : cnt (len (filter (rej_at th) ii)) = len (filter (rejects th) tar)). { unfold cnt. rewrite <- (rej_prefix th). exact A. }
  split; [|split; [exact C|rewrite C; exact B]]. rewrite <- ii_len. clear. induction ii as [|x l IH]; cbn; [lia|]. destruct (rej_at th x); cbn; lia.
Qed.

(** a cut between two different scores (or at an end) is a threshold *)
Definition real_cut (k : nat) : Prop := k = 0 \/ k = len tar + len non \/
  exists i j a b, nth_error ii (k - 1) = Some i /\ nth_error ii k = Some j /\ 0 < k /\ nth_error scores i = Some a /\ nth_error scores j = Some b /\ ltb a b = true.

Lemma cut_threshold k : real_cut k -> exists th, cnt k = len (filter (rejects th) tar) /\ k = cnt k + len (filter (rejects th) non).
Proof.
  assert (G : forall th, filter (rej_at th) ii = firstn k ii -> k <= len ii -> cnt k = len (filter (rejects th) tar) /\ k = cnt k + len (filter (rejects th) non)).
  { intros th E L. destruct (rej_counts th) as (A & B). assert (C : cnt k = len (filter (rejects th) tar)) by (unfold cnt; rewrite <- E; exact A). split; [exact C|]. rewrite C, <- B, E, firstn_length. lia. }
  intros [->|[->|(i & j & a & b & Hi & Hj & K & Ha & Hb & L)]].
  - exists AcceptAll. apply G; [|lia]. cbn [firstn]. clear G. induction ii as [|x l IH]; [reflexivity|]. cbn [filter]. unfold rej_at at 1. cbn. destruct (nth_error scores x); exact IH.
  - exists RejectAll. rewrite <- ii_len in *. apply G; [|lia]. rewrite firstn_all. assert (V : forall x, In x ii -> rej_at RejectAll x = true). { intros x Hx. unfold ii in Hx. apply argsort_in in Hx. unfold rej_at. destruct (nth_error scores x) eqn:E; [reflexivity|apply nth_error_None in E; lia]. }
    clear - V. induction ii as [|x l IH]; [reflexivity|]. cbn [filter]. rewrite (V x ltac:(left; reflexivity)), IH by (intros z Hz; apply V; right; exact Hz). reflexivity.
  - exists (At b). assert (Lk : k < len ii) by (apply nth_error_Some; congruence). apply G; [|lia]. rewrite rej_prefix. set (k' := len (filter (rej_at (At b)) ii)). f_equal.
    assert (Rj : rej_at (At b) j = false) by (unfold rej_at; rewrite Hb; cbn; apply ltb_irrefl).
    assert (Ri : rej_at (At b) i = true) by (unfold rej_at; rewrite Ha; exact L).
    assert (E : filter (rej_at (At b)) ii = firstn k' ii) by (apply rej_prefix).
    assert (LK' : len (firstn k' ii) = k') by (rewrite <- E; reflexivity).
    destruct (lt_eq_lt_dec k' k) as [[Q|Q]|Q]; [|exact Q|].
    + exfalso. assert (In i (filter (rej_at (At b)) ii)) by (apply filter_In; split; [eapply nth_error_In; exact Hi|exact Ri]). rewrite E in H0. apply In_nth_error in H0 as (n & Hn).
      assert (n < k') by (rewrite <- LK'; apply nth_error_Some; congruence). rewrite nth_error_firstn in Hn. destruct (n <? k') eqn:NN; [|discriminate].
      assert (n = k - 1). { eapply (proj1 (NoDup_nth_error ii)); [apply argsort_nodup|lia|]. rewrite Hn, Hi. reflexivity. } lia.
    + exfalso. assert (In j (firstn k' ii)). { eapply (nth_error_In _ k). rewrite nth_error_firstn. destruct (k <? k') eqn:NN; [exact Hj|apply Nat.ltb_ge in NN; lia]. }
      rewrite <- E in H0. apply filter_In in H0 as (_ & H0). congruence.
Qed.

Lemma cnt_le k : cnt k <= k.
Proof. unfold cnt. etransitivity; [|apply (firstn_le_length k ii)]. clear. induction (firstn k ii) as [|x l IH]; cbn [filter len]; [lia|]. destruct (is_tar x); cbn [len]; lia. Qed.
Lemma cnt_0 : cnt 0 = 0. Proof. reflexivity. Qed.
Lemma cnt_all : cnt (len tar + len non) = len tar.
Proof. destruct (cut_threshold (len tar + len non)) as (th & A & B); [right; left; reflexivity|]. destruct (threshold_cut RejectAll) as (k & L & C & D).
  assert (F : forall l : list S, filter (rejects RejectAll) l = l) by (induction l as [|x l IH]; [reflexivity|]; cbn; f_equal; exact IH). rewrite !F in *. rewrite <- C. f_equal. lia.
Qed.
Lemma cnt_S k : k < len tar + len non -> exists i, nth_error ii k = Some i /\ cnt (k + 1) = cnt k + (if is_tar i then 1 else 0).
Proof.
  intros L. rewrite <- ii_len in L. destruct (nth_error ii k) as [i|] eqn:E; [|apply nth_error_None in E; lia]. exists i. split; [reflexivity|]. unfold cnt.
  assert (F : firstn (k + 1) ii = firstn k ii ++ [i]). { clear - E. revert k E. induction ii as [|x l IH]; intros [|k] E; try discriminate E; [injection E as ->; reflexivity|]. cbn [Nat.add]. rewrite !firstn_cons, (IH k E). reflexivity. }
  rewrite F, filter_app, app_length. cbn [filter]. destruct (is_tar i); reflexivity.
Qed.
Lemma cnt_fa_le k : k <= len tar + len non -> k - cnt k <= len non.
Proof.
  intros L. pose proof cnt_all. assert (M : forall d, cnt (k + d) <= cnt k + d). { induction d as [|d IH]; [rewrite Nat.add_0_r; lia|]. destruct (le_lt_dec (len tar + len non) (k + d)) as [Q|Q].
    - assert (X : cnt (k + Datatypes.S d) = cnt (k + d)). { unfold cnt. rewrite !firstn_all2 by (rewrite ii_len; lia). reflexivity. } lia.
    - destruct (cnt_S (k + d) Q) as (i & _ & X). replace (k + Datatypes.S d) with (k + d + 1) by lia. rewrite X. destruct (is_tar i); lia. }
  specialize (M (len tar + len non - k)). replace (k + (len tar + len non - k)) with (len tar + len non) in M by lia. lia.
Qed.
Lemma cnt_mono k d : cnt k <= cnt (k + d).
Proof.
  unfold cnt. assert (X : exists r, firstn (k + d) ii = firstn k ii ++ r). { exists (firstn d (skipn k ii)). clear. revert k. induction ii as [|x l IH]; intros k; [rewrite skipn_nil, !firstn_nil; reflexivity|]. destruct k; [reflexivity|]. cbn [Nat.add skipn]. rewrite !firstn_cons, (IH k). reflexivity. }
  destruct X as (r & ->). rewrite filter_app, app_length. lia.
Qed.

(** the labels in sorted order *)
Lemma gather_labels {A} (x y : A) : gather (repeat x (len tar) ++ repeat y (len non)) ii = Ok (map (fun i => if is_tar i then x else y) ii).
Proof.
  unfold gather. apply take_nat_iff.
  assert (V : forall i, In i ii -> i < len tar + len non). { intros i Hi. unfold ii in Hi. apply argsort_in in Hi. unfold scores in Hi. rewrite app_length in Hi. exact Hi. }
  clearbody ii. induction ii as [|i l IH]; constructor.
  - specialize (V i ltac:(left; reflexivity)). unfold is_tar. destruct (i <? len tar) eqn:E.
    + apply Nat.ltb_lt in E. rewrite nth_error_app1 by (rewrite repeat_length; exact E). rewrite (nth_error_nth' _ x) by (rewrite repeat_length; exact E). rewrite nth_repeat. reflexivity.
    + apply Nat.ltb_ge in E. rewrite nth_error_app2 by (rewrite repeat_length; exact E). rewrite repeat_length, (nth_error_nth' _ y) by (rewrite repeat_length; lia). rewrite nth_repeat. reflexivity.
  - apply IH. intros j Hj. apply V. right. exact Hj.
Qed.
End Roc.
