(** Frames, short-time transforms, filters, voice activity and frame selection (C79, C80). *)
From Coq Require Import Reals Lra Lia Psatz.
From Verif Require Import Base BaseFacts ScoreNorm ScoreNormProps MatProofs Feats.
Open Scope list_scope. Open Scope R_scope.

(** ** Specification *)
(** the window of a short-time transform *)
Definition win_at (w : option (list R)) (t : nat) : R := match w with None => 1 | Some w => nth t w 0 end.
Definition win_fits (w : option (list R)) (L : nat) : Prop := match w with None => True | Some w => List.length w = L end.
(** sum of the windows of the first k frames at sample t *)
Definition cover (k L s : nat) (w : option (list R)) (t : nat) : R :=
  Rsum (map (fun i => if andb (Nat.leb (i * s) t) (Nat.ltb t (i * s + L)) then win_at w (t - i * s) else 0) (seq 0 k)).
(** [ifft] undoes [fft]: samples padded with zeros to the length of the transform *)
Definition inverse_pair {Sp} (fft : nat -> list R -> Sp) (ifft : Sp -> list R) : Prop :=
  forall n y, (List.length y <= n)%nat -> ifft (fft n y) = y ++ repeat 0 (n - List.length y).

(** ** Frames *)
Theorem C79_num_frames n L s : (0 < s)%nat ->
  ((L <= n + s)%nat -> exists nf, num_frames n L s = Ok nf /\ forall i, (i < nf)%nat <-> (i * s + L <= n)%nat) /\
  ((n + s < L)%nat -> num_frames n L s = Err ValueError).
Proof.
  intros S0. unfold num_frames. destruct s as [|s]; [lia|]. set (p := S s) in *. clearbody p. set (a := (Z.of_nat n - Z.of_nat L + Z.of_nat p)%Z).
  assert (P : (0 < Z.of_nat p)%Z) by lia. pose proof (Z.div_mod a (Z.of_nat p) ltac:(lia)) as D. pose proof (Z.mod_pos_bound a (Z.of_nat p) P) as B. set (q := (a / Z.of_nat p)%Z) in *. split; intros H.
  - assert (0 <= q)%Z by (unfold q; apply Z.div_pos; lia). destruct (Z.ltb_spec q 0); [lia|]. exists (Z.to_nat q). split; [reflexivity|]. intros i. split; intros I; nia.
  - assert (q < 0)%Z by (unfold q; apply Z.div_lt_upper_bound; lia). destruct (Z.ltb_spec q 0); [reflexivity|lia].
Qed.
Lemma frame_len {A} j L (x : list A) : (j + L <= List.length x)%nat -> List.length (frame j L x) = L.
Proof. intros H. unfold frame. rewrite firstn_length, skipn_length. lia. Qed.
Lemma frame_nth {A} j L (x : list A) d t : (t < L)%nat -> nth t (frame j L x) d = nth (j + t) x d.
Proof.
  intros H. unfold frame.
  assert (E : forall (l : list A), nth t (firstn L l) d = nth t l d).
  { intros l. revert L t H. clear. induction l as [|a l IH]; intros L t H; [rewrite firstn_nil; reflexivity|]. destruct L; [lia|]. destruct t; [reflexivity|]. simpl. apply IH. lia. }
  rewrite E. revert x. clear. induction j as [|j IH]; intros x; [reflexivity|]. destruct x as [|a x]; [destruct t; reflexivity|]. simpl. apply IH.
Qed.
Lemma list_by_nth {A} (l : list A) (f : nat -> A) n d : List.length l = n -> (forall i, (i < n)%nat -> nth i l d = f i) -> l = map f (seq 0 n).
Proof.
  intros L H. apply (nth_ext _ _ d (f 0%nat)); [rewrite map_length, seq_length; exact L|]. intros i I. rewrite (map_nth f), seq_nth by lia. apply H. lia.
Qed.
Lemma zip_nth (f : R -> R -> R) a : forall b i, List.length a = List.length b -> (i < List.length a)%nat -> nth i (zip_with f a b) 0 = f (nth i a 0) (nth i b 0).
Proof. induction a as [|x a IH]; intros [|y b] i L I; simpl in *; try lia; try discriminate. destruct i; [reflexivity|]. apply IH; lia. Qed.
Lemma zip_len (f : R -> R -> R) a : forall b, List.length a = List.length b -> List.length (zip_with f a b) = List.length a.
Proof. induction a as [|x a IH]; intros [|y b] L; simpl in *; try discriminate; [reflexivity|]. rewrite IH by lia. reflexivity. Qed.
Definition frame_win (x : list R) (L s : nat) (w : option (list R)) (i : nat) : list R := map (fun t => nth (i * s + t) x 0 * win_at w t) (seq 0 L).
Lemma windowed_ok x L s w i : win_fits w L -> (i * s + L <= List.length x)%nat -> windowed w (frame (i * s) L x) = Ok (frame_win x L s w i).
Proof.
  intros W H. pose proof (frame_len (i * s) L x H) as FL. unfold windowed, frame_win. destruct w as [w|]; simpl in W.
  - rewrite FL, W, Nat.eqb_refl. f_equal. apply (list_by_nth _ _ L 0); [rewrite zip_len; lia|]. intros t T. rewrite zip_nth by lia. rewrite frame_nth by exact T. reflexivity.
  - f_equal. apply (list_by_nth _ _ L 0); [exact FL|]. intros t T. rewrite frame_nth by exact T. simpl. ring.
Qed.
(** row i of a short-time transform is the transform of the samples i*shift ... i*shift+length-1 times the window, and there is a row for every
    i for which these samples exist *)
Theorem C79_stft {Sp} (fft : nat -> list R -> Sp) x L s nfft w : (0 < s)%nat -> (L <= List.length x + s)%nat -> win_fits w L ->
  exists nf, stft fft x L s nfft w = Ok (map (fun i => fft nfft (frame_win x L s w i)) (seq 0 nf)) /\ forall i, (i < nf)%nat <-> (i * s + L <= List.length x)%nat.
Proof.
  intros S H W. destruct (proj1 (C79_num_frames (List.length x) L s S) H) as (nf & E & N). exists nf. split; [|exact N]. unfold stft. rewrite E. cbn [bind].
  apply mapM_pure. intros i I. apply in_seq in I. rewrite windowed_ok; [reflexivity|exact W|apply N; lia].
Qed.
(** the log-energy of frame i *)
Theorem C79_log_energy x L s : (0 < s)%nat -> (L <= List.length x + s)%nat ->
  exists nf, st_logE x L s = Ok (map (fun i => ln (Rsum (map (fun t => Rsqr (nth (i * s + t) x 0)) (seq 0 L)) + / 10 ^ 15)) (seq 0 nf)) /\
    forall i, (i < nf)%nat <-> (i * s + L <= List.length x)%nat.
Proof.
  intros S H. destruct (proj1 (C79_num_frames (List.length x) L s S) H) as (nf & E & N). exists nf. split; [|exact N]. unfold st_logE. rewrite E. cbn [bind]. f_equal.
  apply map_ext_in. intros i I. apply in_seq in I. unfold log_eps. do 3 f_equal.
  rewrite (list_by_nth (frame (i * s) L x) (fun t => nth (i * s + t) x 0) L 0); [rewrite map_map; reflexivity|apply frame_len, N; lia|]. intros t T. apply frame_nth. exact T.
Qed.

(** ** Inverse transform *)
Lemma add_at_ok j L a v : List.length v = L -> (j + L <= List.length a)%nat -> exists b, add_at j L a v = Ok b /\ List.length b = List.length a /\
  forall t, (t < List.length a)%nat -> nth t b 0 = nth t a 0 + (if andb (Nat.leb j t) (Nat.ltb t (j + L)) then nth (t - j) v 0 else 0).
Proof.
  intros V H. pose proof (frame_len j L a H) as FL. unfold add_at. rewrite FL, V, Nat.eqb_refl. eexists. split; [reflexivity|].
  assert (LZ : List.length (zip_with Rplus (frame j L a) v) = L) by (rewrite zip_len; lia).
  split; [rewrite !app_length, LZ, firstn_length, skipn_length; lia|]. intros t T.
  destruct (Nat.leb_spec j t) as [J|J]; simpl.
  - rewrite app_nth2 by (rewrite firstn_length; lia). rewrite firstn_length, Nat.min_l by lia. destruct (Nat.ltb_spec t (j + L)) as [K|K].
    + rewrite app_nth1 by lia. rewrite zip_nth by lia. rewrite frame_nth by lia. do 2 f_equal. lia.
    + rewrite app_nth2 by lia. rewrite LZ. rewrite Rplus_0_r. rewrite <- (firstn_skipn (j + L) a) at 2. rewrite (app_nth2 (firstn (j + L) a)) by (rewrite firstn_length; lia). f_equal. rewrite firstn_length. lia.
  - rewrite app_nth1 by (rewrite firstn_length; lia). rewrite Rplus_0_r. rewrite <- (firstn_skipn j a) at 2. rewrite (app_nth1 (firstn j a)) by (rewrite firstn_length; lia). reflexivity.
Qed.
Definition covers (i L s t : nat) : bool := andb (Nat.leb (i * s) t) (Nat.ltb t (i * s + L)).
Lemma overlap_ok L s (w : list R) (f : nat -> list R) : List.length w = L -> (forall i, List.length (f i) = L) -> forall k i0 xo wo,
  List.length wo = List.length xo -> (k = 0 \/ (i0 + k - 1) * s + L <= List.length xo)%nat ->
  exists xo' wo', overlap (map f (seq i0 k)) (i0 * s) L s w xo wo = Ok (xo', wo') /\ List.length xo' = List.length xo /\ List.length wo' = List.length xo /\
  forall t, (t < List.length xo)%nat ->
    nth t xo' 0 = nth t xo 0 + Rsum (map (fun i => if covers i L s t then nth (t - i * s) (f i) 0 else 0) (seq i0 k)) /\
    nth t wo' 0 = nth t wo 0 + Rsum (map (fun i => if covers i L s t then nth (t - i * s) w 0 else 0) (seq i0 k)).
Proof.
  intros LW LF. induction k as [|k IH]; intros i0 xo wo LO H.
  - exists xo, wo. split; [reflexivity|]. split; [reflexivity|]. split; [exact LO|]. intros t T. simpl. split; ring.
  - cbn [seq map overlap]. destruct H as [H|H]; [lia|]. assert (I0 : (i0 * s + L <= List.length xo)%nat) by nia.
    destruct (add_at_ok (i0 * s) L xo (f i0) (LF i0) I0) as (x1 & E1 & L1 & N1). rewrite E1. cbn [bind].
    destruct (add_at_ok (i0 * s) L wo w LW) as (w1 & E2 & L2 & N2); [lia|]. rewrite E2. cbn [bind].
    replace (i0 * s + s)%nat with (S i0 * s)%nat by lia. destruct (IH (S i0) x1 w1) as (xo' & wo' & E & LA & LB & N); [congruence|rewrite L1; destruct k; [left; reflexivity|right]; replace (S i0 + S k - 1)%nat with (i0 + S (S k) - 1)%nat by lia; exact H|].
    exists xo', wo'. split; [exact E|]. split; [congruence|]. split; [congruence|]. intros t T. destruct (N t) as [NX NW]; [congruence|]. rewrite NX, NW, N1, N2 by congruence. unfold Rsum. cbn [map fold_right]. fold (covers i0 L s t). split; ring.
Qed.
Lemma Rsum_ext_in {A} (l : list A) (f g : A -> R) : (forall i, In i l -> f i = g i) -> Rsum (map f l) = Rsum (map g l).
Proof. intros H. f_equal. apply map_ext_in. exact H. Qed.
Lemma Rsum_scal {A} (l : list A) c (f : A -> R) : Rsum (map (fun i => c * f i) l) = c * Rsum (map f l).
Proof. unfold Rsum. induction l as [|a l IH]; simpl; [ring|rewrite IH; ring]. Qed.
Lemma nth_zeros n t : nth t (repeat 0 n) 0 = 0. Proof. revert t. induction n as [|n IH]; intros [|t]; simpl; auto. Qed.
(** [istft] of [stft] gives back every sample at which the windows do not add up to 0, and 0 at the others; the samples after the last frame
    are lost *)
Theorem C79_inverse {Sp} (fft : nat -> list R -> Sp) ifft x L s nfft w : inverse_pair fft ifft -> (0 < s)%nat -> (L <= List.length x)%nat -> (L <= nfft)%nat -> win_fits w L ->
  exists X nf, stft fft x L s nfft w = Ok X /\ (forall i, (i < nf)%nat <-> (i * s + L <= List.length x)%nat) /\
  exists y, istft ifft X L s w = Ok y /\ List.length y = ((nf - 1) * s + L)%nat /\
  forall t, (t < List.length y)%nat -> nth t y 0 = if Req_EM_T (cover nf L s w t) 0 then 0 else nth t x 0.
Proof.
  intros IP S0 H HF W. destruct (C79_stft fft x L s nfft w S0 ltac:(lia) W) as (nf & E & N). exists (map (fun i => fft nfft (frame_win x L s w i)) (seq 0 nf)), nf.
  split; [exact E|]. split; [exact N|]. assert (P : (0 < nf)%nat) by (apply N; lia).
  assert (LF : forall i, List.length (frame_win x L s w i) = L) by (intros; unfold frame_win; rewrite map_length, seq_length; reflexivity).
  unfold istft. set (wl := match w with None => repeat 1 L | Some w => w end). assert (LW : List.length wl = L) by (unfold wl; destruct w as [w|]; [exact W|apply repeat_length]).
  assert (NW : forall t, (t < L)%nat -> nth t wl 0 = win_at w t). { intros t T. unfold wl. destruct w as [w|]; [reflexivity|]. simpl. rewrite (nth_indep _ 0 1) by (rewrite repeat_length; exact T). apply nth_repeat. }
  rewrite map_length, seq_length. assert (NUM : ((Z.of_nat nf - 1) * Z.of_nat s + Z.of_nat L)%Z = Z.of_nat ((nf - 1) * s + L)) by (rewrite Nat2Z.inj_add, Nat2Z.inj_mul, Nat2Z.inj_sub by lia; lia).
  rewrite NUM. destruct (Z.ltb_spec (Z.of_nat ((nf - 1) * s + L)) 0) as [Q|Q]; [pose proof (Nat2Z.is_nonneg ((nf - 1) * s + L)); lia|]. rewrite Nat2Z.id. set (m := ((nf - 1) * s + L)%nat). cbv zeta.
  assert (ME : map (fun X => firstn L (ifft X)) (map (fun i => fft nfft (frame_win x L s w i)) (seq 0 nf)) = map (frame_win x L s w) (seq 0 nf)).
  { rewrite map_map. apply map_ext_in. intros i I. rewrite IP by (rewrite LF; exact HF). rewrite firstn_app, LF, Nat.sub_diag. simpl. rewrite app_nil_r. rewrite <- (LF i) at 1. apply firstn_all. }
  rewrite ME. destruct (overlap_ok L s wl (frame_win x L s w) LW LF nf 0 (repeat 0 m) (repeat 0 m) eq_refl) as (xo & wo & EO & LX & LO & NO); [right; rewrite repeat_length; unfold m; simpl; lia|].
  change (0 * s)%nat with 0%nat in EO. rewrite EO. cbn [bind]. rewrite repeat_length in *. eexists. split; [reflexivity|]. rewrite zip_len by lia. split; [exact LX|].
  intros t T. rewrite zip_nth by lia. destruct (NO t) as [NX NWO]; [lia|]. rewrite nth_zeros, Rplus_0_l in NX, NWO.
  assert (EW : nth t wo 0 = cover nf L s w t).
  { rewrite NWO. apply Rsum_ext_in. intros i _. unfold covers. destruct (Nat.leb_spec (i * s) t); [|reflexivity]. destruct (Nat.ltb_spec t (i * s + L)); [|reflexivity]. simpl. apply NW. lia. }
  assert (EX : nth t xo 0 = nth t x 0 * cover nf L s w t).
  { rewrite NX. unfold cover. rewrite <- Rsum_scal. apply Rsum_ext_in. intros i _. unfold covers. destruct (Nat.leb_spec (i * s) t) as [A|A]; [|simpl; ring]. destruct (Nat.ltb_spec t (i * s + L)) as [B|B]; [|simpl; ring]. simpl.
    unfold frame_win. rewrite (nth_indep _ 0 (nth (i * s + 0) x 0 * win_at w 0)) by (rewrite map_length, seq_length; lia). rewrite (map_nth (fun t => nth (i * s + t) x 0 * win_at w t)), seq_nth by lia. do 2 f_equal. lia. }
  rewrite EX, EW. destruct (Req_EM_T (cover nf L s w t) 0) as [Z|Z]; [rewrite Z; ring|field; exact Z].
Qed.
Lemma cover_one L s w k t i : (i < k)%nat -> covers i L s t = true -> (forall u, (u < L)%nat -> 0 <= win_at w u) -> (forall u, (u < L)%nat -> (i * s + u = t)%nat -> 0 < win_at w u) -> 0 < cover k L s w t.
Proof.
  intros I C P Q. unfold cover. assert (G : forall j, 0 <= (if covers j L s t then win_at w (t - j * s) else 0)).
  { intros j. unfold covers. destruct (Nat.leb_spec (j * s) t); [|simpl; lra]. destruct (Nat.ltb_spec t (j * s + L)); [|simpl; lra]. simpl. apply P. lia. }
  replace k with (i + (k - i))%nat by lia. rewrite seq_app, map_app. unfold Rsum. rewrite fold_right_app. destruct (k - i)%nat as [|r] eqn:R; [lia|]. cbn [seq map fold_right].
  assert (PI : 0 < (if covers i L s t then win_at w (t - i * s) else 0)).
  { rewrite C. unfold covers in C. apply andb_prop in C. destruct C as [C1 C2]. apply Nat.leb_le in C1. apply Nat.ltb_lt in C2. apply Q; lia. }
  unfold covers in PI. change (0 + i)%nat with i. assert (TL : forall l, 0 <= fold_right Rplus 0 (map (fun i0 => if covers i0 L s t then win_at w (t - i0 * s) else 0) l)).
  { induction l as [|a l IHl]; simpl; [lra|]. specialize (G a). lra. }
  assert (A : forall l z, 0 < z -> 0 < fold_right Rplus z (map (fun i0 => if covers i0 L s t then win_at w (t - i0 * s) else 0) l)).
  { induction l as [|a l IHl]; intros z Z; simpl; [exact Z|]. specialize (G a). specialize (IHl z Z). lra. }
  apply A. specialize (TL (seq (S i) r)). unfold covers in TL. lra.
Qed.
(** without window and with overlapping or adjacent frames the first (nf-1)*shift+length samples come back exactly *)
Theorem C79_inverse_rectangular {Sp} (fft : nat -> list R -> Sp) ifft x L s nfft : inverse_pair fft ifft -> (0 < s <= L)%nat -> (L <= List.length x)%nat -> (L <= nfft)%nat ->
  exists X nf, stft fft x L s nfft None = Ok X /\ (forall i, (i < nf)%nat <-> (i * s + L <= List.length x)%nat) /\ istft ifft X L s None = Ok (firstn ((nf - 1) * s + L) x).
Proof.
  intros IP [S0 SL] H HF. destruct (C79_inverse fft ifft x L s nfft None IP S0 H HF I) as (X & nf & E & N & y & EY & LY & V). exists X, nf. split; [exact E|]. split; [exact N|]. rewrite EY. f_equal.
  assert (P : (0 < nf)%nat) by (apply N; lia). pose proof (proj1 (N (nf - 1)%nat) ltac:(lia)) as B.
  apply (nth_ext _ _ 0 0); [rewrite firstn_length; lia|]. intros t T. rewrite V by exact T. rewrite LY in T.
  assert (C : 0 < cover nf L s None t).
  { set (i := Nat.min (t / s) (nf - 1)). pose proof (Nat.div_mod t s ltac:(lia)) as D. pose proof (Nat.mod_upper_bound t s ltac:(lia)) as M. apply (cover_one L s None nf t i).
    - unfold i. lia.
    - unfold covers. apply andb_true_intro. split; [apply Nat.leb_le|apply Nat.ltb_lt]; unfold i; destruct (Nat.min_spec (t / s) (nf - 1)) as [[Q ->]|[Q ->]]; nia.
    - intros; simpl; lra.
    - intros; simpl; lra. }
  destruct (Req_EM_T (cover nf L s None t) 0); [lra|]. symmetry.
  rewrite <- (firstn_skipn ((nf - 1) * s + L) x) at 2. rewrite app_nth1 by (rewrite firstn_length; lia). reflexivity.
Qed.
(** a window that starts with 0 (povey, hanning: see feature_windows.py) loses the first sample *)
Theorem C79_first_sample_refuted {Sp} (fft : nat -> list R -> Sp) ifft x L s nfft w : inverse_pair fft ifft -> (0 < s)%nat -> (0 < L <= List.length x)%nat -> (L <= nfft)%nat -> List.length w = L -> nth 0 w 0 = 0 ->
  exists X y, stft fft x L s nfft (Some w) = Ok X /\ istft ifft X L s (Some w) = Ok y /\ nth 0 y 0 = 0.
Proof.
  intros IP S0 [L0 H] HF W Z. destruct (C79_inverse fft ifft x L s nfft (Some w) IP S0 H HF W) as (X & nf & E & N & y & EY & LY & V). exists X, y. split; [exact E|]. split; [exact EY|].
  rewrite V by (rewrite LY; apply Nat.lt_lt_add_l; exact L0). assert (cover nf L s (Some w) 0 = 0) as ->.
  { unfold cover. rewrite (Rsum_ext_in _ _ (fun _ => 0 * 0)); [rewrite Rsum_scal; ring|]. intros i _. destruct (Nat.leb_spec (i * s) 0); [|simpl; ring]. destruct (Nat.ltb_spec 0 (i * s + L)); simpl; [rewrite Z; ring|ring]. }
  destruct (Req_EM_T 0 0); [reflexivity|lra].
Qed.
Example C79_witness : inverse_pair (fun n (y : list R) => y ++ repeat 0 (n - List.length y)) (fun y => y) /\
  stft (fun n (y : list R) => y ++ repeat 0 (n - List.length y)) [1; 2; 3; 4; 5; 6] 3 2 4 None = Ok [[1; 2; 3; 0]; [3; 4; 5; 0]].
Proof. split; [intros n y L; reflexivity|]. reflexivity. Qed.
Print Assumptions C79_num_frames. Print Assumptions C79_inverse.
