(** C89: embeddings extracted in chunks. *)
From Coq Require Import ZArith List Bool Arith Lia.
From Verif Require Import Base BaseFacts Embed.
Import ListNotations.
Open Scope list_scope. Open Scope nat_scope.

(** ** Specification *)
(** n frames from s *)
Definition window {A} (x : list A) (s n : nat) : list A := firstn n (skipn s x).
(** a network with P outputs for L inputs, one per r inputs, where an output far enough from the ends is a function h of lc frames before its
    block, the block and rc frames after it *)
Definition local {A B} (enc : list A -> list B) (L P r lc rc : nat) (h : list A -> B) : Prop :=
  forall X, List.length X = L -> List.length (enc X) = P /\
  forall p, lc <= p * r -> p * r + r + rc <= L -> nth_error (enc X) p = Some (h (window X (p * r - lc) (lc + r + rc))).
(** contexts and lengths are multiples of the downsampling, and chunks are longer than their contexts *)
Definition conf_ok (c : conf) (r : nat) : Prop :=
  0 < r /\ c_P c * r = c_L c /\ c_left c + c_right c < c_L c /\ c_left c mod r = 0 /\ c_right c mod r = 0 /\ begin_ctx c mod r = 0 /\ end_ctx c mod r = 0 /\
  (c_down c = None \/ c_down c = Some r).

(** ** The loop *)
Lemma put_len {C} j k (v y : list C) : j <= k -> k <= List.length y -> List.length v = k - j -> List.length (put j k v y) = List.length y.
Proof. intros J K V. unfold put. rewrite !app_length, firstn_length, skipn_length. lia. Qed.
Lemma put_nth {C} j k (v y : list C) p : j <= k -> k <= List.length y -> List.length v = k - j ->
  nth_error (put j k v y) p = if (j <=? p) && (p <? k) then nth_error v (p - j) else nth_error y p.
Proof.
  intros J K V. unfold put. assert (LF : List.length (firstn j y) = j) by (rewrite firstn_length; lia).
  destruct (Nat.leb_spec j p); cbn [andb].
  - rewrite nth_error_app2 by lia. rewrite LF. destruct (Nat.ltb_spec p k).
    + rewrite nth_error_app1 by lia. reflexivity.
    + rewrite nth_error_app2 by lia. rewrite nth_error_skipn. f_equal. lia.
  - rewrite nth_error_app1 by lia. rewrite nth_error_firstn. destruct (Nat.ltb_spec p j); [reflexivity|lia].
Qed.
Lemma window_nth {A} (x : list A) s n p : nth_error (window x s n) p = if p <? n then nth_error x (s + p) else None.
Proof. unfold window. rewrite nth_error_firstn, nth_error_skipn. reflexivity. Qed.
(** a buffer that holds the frames of x from j on *)
Definition holds {A} (X x : list A) (L j : nat) : Prop := List.length X = L /\ forall t, t < L -> j + t < List.length x -> nth_error X t = nth_error x (j + t).
Lemma fill_holds {A} (x x_i : list A) L j : List.length x_i = L -> j <= List.length x -> let l := Nat.min (j + L) (List.length x) - j in holds (put 0 l (firstn l (skipn j x)) x_i) x L j.
Proof.
  intros LX J l. assert (LV : List.length (firstn l (skipn j x)) = l - 0) by (rewrite firstn_length, skipn_length; lia). split.
  - rewrite put_len; [exact LX|lia|lia|exact LV].
  - intros t T1 T2. rewrite put_nth; [|lia|lia|exact LV]. replace ((0 <=? t) && (t <? l)) with true by (symmetry; apply andb_true_intro; split; [reflexivity|apply Nat.ltb_lt; lia]).
    rewrite nth_error_firstn, nth_error_skipn. destruct (Nat.ltb_spec (t - 0) l); [f_equal; lia|lia].
Qed.
Section Loop.
Context {A B : Type} (enc : list A -> list B) (x : list A) (L P shift pshift plc plen : nat).
Hypothesis EN : forall X, List.length X = L -> List.length (enc X) = P.
Lemma loop_ok : forall n i j_in j_out x_i y, 1 <= i -> 1 <= n -> 0 < pshift -> pshift <= P -> List.length x_i = L -> List.length y = plen -> j_in + (n - 1) * shift <= List.length x ->
  j_out + (n - 1) * pshift <= plen -> plen <= j_out + (n - 1) * pshift + P ->
  exists y', chunks enc x L P shift pshift plc plen n i j_in j_out x_i y = Ok y' /\ List.length y' = plen /\
  (forall p, p < j_out -> nth_error y' p = nth_error y p) /\
  forall p, j_out <= p < plen -> exists m X, m < n /\ m * pshift <= p - j_out /\ (p - j_out < (m + 1) * pshift \/ m + 1 = n) /\ holds X x L (j_in + m * shift) /\
    nth_error y' p = nth_error (enc X) (p - j_out - m * pshift) /\ p - j_out - m * pshift < P.
Proof.
  induction n as [|n IH]; intros i j_in j_out x_i y I N PS1 PS2 LX LY HJ HO HP; [lia|].
  cbn [chunks]. replace (S n - 1) with n in * by lia. pose proof (Nat.le_0_l (n * shift)). pose proof (Nat.le_0_l (n * pshift)).
  set (k_out := Nat.min (j_out + P) plen). set (l_in := Nat.min (j_in + L) (List.length x) - j_in).
  set (X := put 0 l_in (firstn l_in (skipn j_in x)) x_i).
  assert (HX : holds X x L j_in) by (apply fill_holds; [exact LX|lia]).
  assert (KJ : (k_out <? j_out) = false) by (apply Nat.ltb_ge; unfold k_out; lia). rewrite KJ. cbn [bind].
  assert (LV : List.length (firstn (k_out - j_out) (enc X)) = k_out - j_out) by (rewrite firstn_length, EN by apply HX; unfold k_out; lia).
  set (y1 := put j_out k_out (firstn (k_out - j_out) (enc X)) y).
  assert (LY1 : List.length y1 = plen) by (unfold y1; rewrite put_len; [exact LY|unfold k_out; lia|unfold k_out; lia|exact LV]).
  assert (NY1 : forall p, nth_error y1 p = if (j_out <=? p) && (p <? k_out) then nth_error (enc X) (p - j_out) else nth_error y p).
  { intros p. unfold y1. rewrite put_nth; [|unfold k_out; lia|unfold k_out; lia|exact LV]. destruct (Nat.leb_spec j_out p), (Nat.ltb_spec p k_out); cbn [andb]; try reflexivity. rewrite nth_error_firstn. destruct (Nat.ltb_spec (p - j_out) (k_out - j_out)); [reflexivity|lia]. }
  assert (I0 : (i =? 0) = false) by (apply Nat.eqb_neq; lia). rewrite I0, Nat.add_0_r. clearbody y1.
  destruct n as [|n].
  - exists y1. split; [reflexivity|]. split; [exact LY1|]. split; [intros p HPp; rewrite NY1; destruct (Nat.leb_spec j_out p); [lia|reflexivity]|].
    intros p HPp. exists 0, X. cbn [Nat.mul] in HP. rewrite Nat.mul_0_l. split; [lia|]. split; [lia|]. split; [right; lia|]. rewrite Nat.mul_0_l, Nat.add_0_r. split; [exact HX|].
    rewrite NY1, Nat.sub_0_r. unfold k_out. destruct (Nat.leb_spec j_out p), (Nat.ltb_spec p (Nat.min (j_out + P) plen)); cbn [andb]; try lia. split; [reflexivity|lia].
  - destruct (IH (S i) (j_in + shift) (j_out + pshift) X y1) as (y' & E & L' & N1 & N2); try lia; try (replace (S n - 1) with n by lia; simpl in *; lia). { apply HX. }
    exists y'. split; [exact E|]. split; [exact L'|]. split.
    + intros p HPp. rewrite N1 by lia. rewrite NY1. destruct (Nat.leb_spec j_out p); [lia|reflexivity].
    + intros p HPp. destruct (Nat.lt_ge_cases p (j_out + pshift)) as [C|C].
      * exists 0, X. rewrite Nat.mul_0_l, Nat.mul_0_l, Nat.add_0_r. split; [lia|]. split; [lia|]. split; [left; lia|]. split; [exact HX|].
        rewrite (N1 p C), NY1, Nat.sub_0_r. unfold k_out. destruct (Nat.leb_spec j_out p), (Nat.ltb_spec p (Nat.min (j_out + P) plen)); cbn [andb]; try lia. split; [reflexivity|lia].
      * destruct (N2 p ltac:(lia)) as (m & X' & M1 & M2 & M3 & M4 & M5 & M6). exists (S m), X'. split; [lia|]. split; [simpl; lia|]. split; [destruct M3 as [M3|M3]; [left; simpl in *; lia|right; lia]|].
        split; [replace (j_in + S m * shift) with (j_in + shift + m * shift) by (simpl; lia); exact M4|].
        replace (p - j_out - S m * pshift) with (p - (j_out + pshift) - m * pshift) by (simpl; lia). split; [exact M5|exact M6].
Qed.
End Loop.
(** where the output of chunk i starts, in frames of the pooled sequence *)
Definition out_start (c : conf) (r i : nat) : nat := match i with 0 => 0 | _ => (i * (c_L c - c_left c - c_right c) + c_left c) / r end.
Lemma num_chunks_bounds T L s : 0 < s -> let n := num_chunks T L s in (2 <= n -> (n - 1) * s < T - L + s /\ L <= T) /\ (1 <= n -> T <= (n - 1) * s + L) /\ (L <= T + s - 1 -> 1 <= n).
Proof.
  intros S0. unfold num_chunks. destruct (Nat.leb_spec L T) as [C|C]; cbv zeta.
  - set (q := (T - L + s - 1) / s). pose proof (Nat.div_mod (T - L + s - 1) s ltac:(lia)) as D. fold q in D. pose proof (Nat.mod_upper_bound (T - L + s - 1) s ltac:(lia)) as M.
    replace (q + 1 - 1) with q by lia. rewrite (Nat.mul_comm q s). split; [intros _; lia|]. split; [intros _; lia|lia].
  - set (q := (L - T) / s). split; [lia|]. split; [intros _; lia|]. intros H. unfold q. rewrite Nat.div_small; lia.
Qed.
Lemma mod0 a r : 0 < r -> a mod r = 0 -> a = (a / r) * r.
Proof. intros R M. pose proof (Nat.div_mod a r ltac:(lia)). lia. Qed.
Lemma mul_div a r : 0 < r -> a * r / r = a.
Proof. intros R. apply Nat.div_mul. lia. Qed.
Lemma conf_run {A B} one (c : conf) r (enc : list A -> list B) zA zB x : conf_ok c r ->
  embed_frames one c enc zA zB x =
  (y <- chunks enc x (c_L c) (c_P c) (c_L c - c_left c - c_right c) ((c_L c - c_left c - c_right c) / r) (c_left c / r) (List.length x / r)
     (let n := num_chunks (List.length x) (c_L c) (c_L c - c_left c - c_right c) in if one then Nat.max n 1 else n) 0 0 0 (repeat zA (c_L c)) (repeat zB (List.length x / r)) ;;
   Ok (combine (mask_of (List.length x / r) (begin_ctx c / r) (end_ctx c / r)) y)).
Proof.
  intros (R0 & PL & CL & M1 & M2 & M3 & M4 & D). unfold embed_frames.
  assert (DS : downsampling c = Ok r).
  { unfold downsampling. destruct D as [-> | ->]; [|reflexivity]. assert (P0 : c_P c <> 0) by (intros E; rewrite E in PL; simpl in PL; lia).
    destruct (Nat.eqb_spec (c_P c) 0); [lia|]. rewrite <- PL, Nat.mul_comm, Nat.mod_mul, Nat.div_mul by lia. reflexivity. }
  rewrite DS. cbn [bind]. destruct (Nat.eqb_spec r 0); [lia|]. rewrite M1, M2, M3, M4. cbn [Nat.eqb andb negb].
  destruct (Nat.eqb_spec (c_L c - c_left c - c_right c) 0); [lia|]. reflexivity.
Qed.
(** ** What every pooled frame is: the output of the network at the right chunk, counted from the start of the chunk's output. *)
Theorem C89_frames {A B} one (c : conf) r (enc : list A -> list B) zA zB x : conf_ok c r -> (forall X, List.length X = c_L c -> List.length (enc X) = c_P c) ->
  one = true \/ c_left c + c_right c < List.length x ->
  let s := c_L c - c_left c - c_right c in
  exists y n, embed_frames one c enc zA zB x = Ok (combine (mask_of (List.length x / r) (begin_ctx c / r) (end_ctx c / r)) y) /\ List.length y = List.length x / r /\ 1 <= n /\
  (2 <= n -> (n - 1) * s + c_left c + c_right c < List.length x) /\ List.length x <= (n - 1) * s + c_L c /\
  forall p, p < List.length x / r -> exists i X, i < n /\ out_start c r i <= p /\ (p < out_start c r (i + 1) \/ i + 1 = n) /\ holds X x (c_L c) (i * s) /\
    nth_error y p = nth_error (enc X) (p - out_start c r i) /\ p - out_start c r i < c_P c.
Proof.
  intros K EN ON s. rewrite (conf_run one c r enc zA zB x K). destruct K as (R0 & PL & CL & M1 & M2 & M3 & M4 & D). fold s.
  set (T := List.length x) in *. assert (S0 : 0 < s) by (unfold s; lia).
  destruct (num_chunks_bounds T (c_L c) s S0) as (B1 & B2 & B3).
  set (n := let n0 := num_chunks T (c_L c) s in if one then Nat.max n0 1 else n0).
  assert (N1 : 1 <= n) by (unfold n; destruct one; [lia|]; destruct ON as [ON|ON]; [discriminate|]; apply B3; unfold s; lia).
  assert (N2 : 2 <= n -> (n - 1) * s + c_left c + c_right c < T).
  { intros H. assert (E : n = num_chunks T (c_L c) s) by (unfold n in *; destruct one; lia). rewrite E in *. specialize (B1 H). unfold s in *. lia. }
  assert (N3 : T <= (n - 1) * s + c_L c).
  { destruct (Nat.eq_dec (num_chunks T (c_L c) s) 0) as [Z|Z].
    - assert (T < c_L c); [|pose proof (Nat.le_0_l ((n - 1) * s)); lia]. destruct (Nat.lt_ge_cases T (c_L c)) as [H|H]; [exact H|]. exfalso. specialize (B3 ltac:(lia)). lia.
    - assert (E : n = num_chunks T (c_L c) s) by (unfold n; destruct one; lia). rewrite E. apply B2. lia. }
  clearbody n. clear B1 B2 B3.
  set (plc := c_left c / r). set (ps := s / r). set (P := c_P c) in *. set (L := c_L c) in *. set (plen := T / r).
  pose proof (mod0 _ _ R0 M1) as LC. fold plc in LC. pose proof (mod0 _ _ R0 M2) as RC. set (prc := c_right c / r) in *.
  assert (SP : s = ps * r). { unfold ps. assert (E : s = (P - plc - prc) * r) by (unfold s; rewrite <- PL, LC, RC, !Nat.mul_sub_distr_r; lia). rewrite E, mul_div by lia. reflexivity. }
  assert (PS0 : 0 < ps) by (assert (ps <> 0) by (intros E; rewrite E in SP; simpl in SP; lia); lia).
  assert (PP : ps + plc + prc = P) by (apply (Nat.mul_cancel_r _ _ r); [lia|]; rewrite !Nat.mul_add_distr_r, <- SP, <- LC, <- RC, PL; unfold s; lia).
  pose proof (Nat.div_mod T r ltac:(lia)) as TD. fold plen in TD. pose proof (Nat.mod_upper_bound T r ltac:(lia)) as TM.
  assert (OS : forall i, out_start c r (S i) = S i * ps + plc). { intros i. unfold out_start. change (c_L c - c_left c - c_right c) with s. rewrite SP, LC, Nat.mul_assoc, <- Nat.mul_add_distr_r. apply mul_div, R0. }
  assert (N3' : plen <= (n - 1) * ps + P). { apply Nat.lt_succ_r. apply (Nat.mul_lt_mono_pos_r r); [lia|]. rewrite Nat.mul_succ_l, Nat.mul_add_distr_r, <- Nat.mul_assoc, <- SP, PL. lia. }
  destruct n as [|n]; [lia|]. cbn [chunks]. replace (S n - 1) with n in * by lia. rewrite !Nat.add_0_l.
  fold T. set (l_in := Nat.min L T - 0). set (X0 := put 0 l_in (firstn l_in (skipn 0 x)) (repeat zA L)).
  assert (HX : holds X0 x L 0) by (unfold X0, l_in; apply (fill_holds x (repeat zA L) L 0); [apply repeat_length|lia]).
  set (k_out := Nat.min P plen). assert (KJ : (k_out <? 0) = false) by reflexivity. rewrite KJ. cbn [bind]. rewrite Nat.sub_0_r.
  assert (LV : List.length (firstn k_out (enc X0)) = k_out - 0) by (rewrite firstn_length, EN by apply HX; unfold k_out, P; lia).
  set (y1 := put 0 k_out (firstn k_out (enc X0)) (repeat zB plen)).
  assert (LY1 : List.length y1 = plen) by (unfold y1; rewrite put_len; [apply repeat_length|lia|rewrite repeat_length; unfold k_out; lia|exact LV]).
  assert (NY1 : forall p, p < k_out -> nth_error y1 p = nth_error (enc X0) p).
  { intros p HP. unfold y1. rewrite put_nth; [|lia|rewrite repeat_length; unfold k_out; lia|exact LV]. destruct (Nat.leb_spec 0 p), (Nat.ltb_spec p k_out); cbn [andb]; try lia. rewrite nth_error_firstn. destruct (Nat.ltb_spec (p - 0) k_out); [f_equal; lia|lia]. }
  clearbody y1. cbn [Nat.eqb].
  destruct n as [|n].
  - exists y1, 1. cbn [chunks bind]. split; [reflexivity|]. split; [exact LY1|]. split; [lia|]. split; [lia|]. split; [simpl in *; lia|].
    intros p HP. exists 0, X0. cbn [out_start Nat.mul]. split; [lia|]. split; [lia|]. split; [right; reflexivity|]. split; [exact HX|]. rewrite Nat.sub_0_r. simpl in N3'. split; [apply NY1; unfold k_out; lia|lia].
  - assert (N4 : S n * ps + plc + prc <= plen).
    { assert (Q : (S n * ps + plc + prc) * r < T) by (rewrite !Nat.mul_add_distr_r, <- Nat.mul_assoc, <- SP, <- LC, <- RC; specialize (N2 ltac:(lia)); lia).
      assert (S n * ps + plc + prc < S plen); [|lia]. apply (Nat.mul_lt_mono_pos_r r); [lia|]. rewrite Nat.mul_succ_l. lia. }
    destruct (loop_ok enc x L P s ps plc plen EN (S n) 1 s (ps + plc) X0 y1) as (y' & E & L' & E1 & E2).
    all: try lia. { apply HX. }
    exists y', (S (S n)). rewrite E. cbn [bind]. split; [reflexivity|]. split; [exact L'|]. split; [lia|]. split; [replace (S (S n) - 1) with (S n) by lia; exact N2|]. split; [replace (S (S n) - 1) with (S n) by lia; exact N3|].
    intros p HP. destruct (Nat.lt_ge_cases p (ps + plc)) as [C|C].
    + exists 0, X0. split; [lia|]. split; [cbn [out_start]; lia|]. split; [left; change (0 + 1) with 1; rewrite (OS 0); lia|]. split; [exact HX|]. cbn [out_start]. rewrite Nat.sub_0_r, (E1 p C). split; [apply NY1; unfold k_out; lia|lia].
    + destruct (E2 p ltac:(lia)) as (m & X & Q1 & Q2 & Q3 & Q4 & Q5 & Q6). exists (S m), X. rewrite OS. replace (S m + 1) with (S (S m)) by lia. rewrite OS.
      split; [lia|]. split; [simpl; lia|]. split; [destruct Q3 as [Q3|Q3]; [left; simpl in *; lia|right; lia]|]. split; [exact Q4|].
      replace (p - (S m * ps + plc)) with (p - (ps + plc) - m * ps) by (simpl; lia). split; [exact Q5|exact Q6].
Qed.

(** ** Without left context, extraction in chunks gives the frames of the whole sequence: each pooled frame with all its context inside the
    sequence is the network's function of its own input frames, whatever the length of the chunks. *)
Lemma holds_window {A} (X x : list A) L j s n : holds X x L j -> s + n <= L -> j + s + n <= List.length x -> window X s n = window x (j + s) n.
Proof.
  intros (LX & H) SL JL. apply nth_error_ext. intros p. rewrite !window_nth. destruct (Nat.ltb_spec p n); [|reflexivity]. rewrite H by lia. f_equal. lia.
Qed.
Lemma out_mul c r i : conf_ok c r -> out_start c r i * r = match i with 0 => 0 | _ => i * (c_L c - c_left c - c_right c) + c_left c end.
Proof.
  intros (R0 & PL & CL & M1 & M2 & _). unfold out_start. destruct i as [|i]; [reflexivity|]. set (s := c_L c - c_left c - c_right c). symmetry. apply mod0; [exact R0|].
  pose proof (mod0 _ _ R0 M1) as LC. pose proof (mod0 _ _ R0 M2) as RC. assert (E : s = (c_P c - c_left c / r - c_right c / r) * r) by (unfold s; rewrite <- PL, !Nat.mul_sub_distr_r, <- LC, <- RC; reflexivity).
  rewrite E, LC, Nat.mul_assoc, <- Nat.mul_add_distr_r. apply Nat.mod_mul. lia.
Qed.
Theorem C89_whole {A B} one (c : conf) r (enc : list A -> list B) h zA zB x : conf_ok c r -> c_left c = 0 -> local enc (c_L c) (c_P c) r 0 (c_right c) h -> one = true \/ c_right c < List.length x ->
  exists y, embed_frames one c enc zA zB x = Ok (combine (mask_of (List.length x / r) (begin_ctx c / r) (end_ctx c / r)) y) /\ List.length y = List.length x / r /\
  forall p, p * r + r + c_right c <= List.length x -> nth_error y p = Some (h (window x (p * r) (r + c_right c))).
Proof.
  intros K LC LO ON. destruct (C89_frames one c r enc zA zB x K) as (y & n & E & LY & N1 & N2 & N3 & H). { intros X HX. apply (LO X HX). } { rewrite LC. exact ON. }
  exists y. split; [exact E|]. split; [exact LY|]. intros p HP. pose proof K as (R0 & PL & CL & _). rewrite LC in *.
  assert (HP' : p < List.length x / r). { apply Nat.div_le_lower_bound; [lia|]. rewrite Nat.mul_succ_r, Nat.mul_comm. lia. }
  destruct (H p HP') as (i & X & I1 & I2 & I3 & HX & V & PB). rewrite V.
  pose proof (out_mul c r i K) as O. rewrite LC in O. assert (O' : out_start c r i * r = i * (c_L c - 0 - c_right c)) by (rewrite O; destruct i; lia). clear O.
  set (s := c_L c - 0 - c_right c) in *. set (q := p - out_start c r i) in *. assert (Q : q * r = p * r - i * s) by (unfold q; rewrite Nat.mul_sub_distr_r, O'; reflexivity).
  assert (IP : i * s <= p * r) by (rewrite <- O'; apply Nat.mul_le_mono_r, I2).
  assert (QL : q * r + r + c_right c <= c_L c).
  { destruct I3 as [I3|I3].
    - pose proof (out_mul c r (i + 1) K) as O2. rewrite LC in O2. fold s in O2. assert (O2' : out_start c r (i + 1) * r = i * s + s) by (rewrite O2; replace (i + 1) with (S i) by lia; simpl; lia).
      assert (G : p * r + r <= i * s + s) by (rewrite <- O2'; replace (p * r + r) with (S p * r) by (simpl; lia); apply Nat.mul_le_mono_r; lia). unfold s in *. lia.
    - replace (n - 1) with i in N3 by lia. lia. }
  destruct (LO X (proj1 HX)) as (_ & LO'). rewrite (LO' q ltac:(lia) QL). do 2 f_equal. rewrite Nat.sub_0_r. cbn [Nat.add]. rewrite (holds_window X x (c_L c) (i * s) (q * r) (r + c_right c) HX) by lia. f_equal. lia.
Qed.
(** the kept frames: with an end context that covers the right context, the pooling sees just the frames of the whole sequence between the
    begin and end contexts *)
Definition kept {B} (f : list (bool * B)) : list B := map snd (filter fst f).
Lemma kept_map {B} (f : nat -> bool) (g : nat -> B) : forall y s, (forall p, f p = true -> s <= p < s + List.length y -> nth_error y (p - s) = Some (g p)) ->
  kept (combine (map f (seq s (List.length y))) y) = map g (filter f (seq s (List.length y))).
Proof.
  induction y as [|v y IH]; intros s H; [reflexivity|]. cbn [List.length seq map combine filter]. unfold kept in *. cbn [filter fst].
  assert (I : map snd (filter fst (combine (map f (seq (S s) (List.length y))) y)) = map g (filter f (seq (S s) (List.length y)))).
  { apply IH. intros p F Hp. specialize (H p F ltac:(simpl; lia)). replace (p - s) with (S (p - S s)) in H by lia. exact H. }
  destruct (f s) eqn:F; [|exact I]. cbn [map snd]. rewrite I. f_equal. specialize (H s F ltac:(simpl; lia)). rewrite Nat.sub_diag in H. simpl in H. congruence.
Qed.
Lemma filter_range a n : forall len s, filter (fun p => (a <=? p) && (p <? n)) (seq s len) = seq (Nat.max a s) (Nat.min n (s + len) - Nat.max a s).
Proof.
  induction len as [|len IH]; intros s; cbn [seq filter].
  - replace (Nat.min n (s + 0) - Nat.max a s) with 0 by lia. reflexivity.
  - rewrite IH. destruct (Nat.leb_spec a s) as [C1|C1], (Nat.ltb_spec s n) as [C2|C2]; cbn [andb].
    + replace (Nat.min n (s + S len) - Nat.max a s) with (S (Nat.min n (S s + len) - Nat.max a (S s))) by lia. replace (Nat.max a s) with s by lia. replace (Nat.max a (S s)) with (S s) by lia. reflexivity.
    + replace (Nat.min n (S s + len) - Nat.max a (S s)) with 0 by lia. replace (Nat.min n (s + S len) - Nat.max a s) with 0 by lia. reflexivity.
    + replace (Nat.max a (S s)) with (Nat.max a s) by lia. f_equal. lia.
    + replace (Nat.min n (S s + len) - Nat.max a (S s)) with 0 by lia. replace (Nat.min n (s + S len) - Nat.max a s) with 0 by lia. reflexivity.
Qed.
Theorem C89_embed {A B E} one (c : conf) r (enc : list A -> list B) h zA zB x (pool : list (bool * B) -> E) (g : list B -> E) :
  conf_ok c r -> c_left c = 0 -> local enc (c_L c) (c_P c) r 0 (c_right c) h -> c_right c <= end_ctx c -> end_ctx c < List.length x ->
  (forall f, pool f = g (kept f)) ->
  predict_embed one c enc zA zB pool x =
  Ok (g (map (fun p => h (window x (p * r) (r + c_right c))) (seq (begin_ctx c / r) (List.length x / r - end_ctx c / r - begin_ctx c / r)))).
Proof.
  intros K LC LO RE ET PG. destruct (C89_whole one c r enc h zA zB x K LC LO) as (y & EF & LY & H); [right; lia|].
  unfold predict_embed. rewrite EF. cbn [bind]. rewrite PG. do 2 f_equal. pose proof K as (R0 & _ & _ & _ & _ & _ & M4 & _).
  set (n := List.length x / r) in *. set (e := end_ctx c / r). set (b := begin_ctx c / r). pose proof (mod0 _ _ R0 M4) as EE. fold e in EE.
  pose proof (Nat.div_mod (List.length x) r ltac:(lia)) as TD. fold n in TD. pose proof (Nat.mod_upper_bound (List.length x) r ltac:(lia)) as TM.
  assert (EN : e <= n). { apply Nat.div_le_mono; lia. }
  unfold mask_of. destruct (Nat.leb_spec e n); [|lia]. rewrite <- LY at 1. rewrite (kept_map (fun p => (b <=? p) && (p <? n - e)) (fun p => h (window x (p * r) (r + c_right c)))).
  - rewrite filter_range, LY. f_equal. f_equal; lia.
  - intros p F Hp. rewrite Nat.sub_0_r. apply H. apply andb_prop in F. destruct F as [_ F]. apply Nat.ltb_lt in F.
    assert ((p + 1) * r + e * r <= n * r) by (rewrite <- Nat.mul_add_distr_r; apply Nat.mul_le_mono_r; lia). lia.
Qed.
(** ** With a left context, every chunk but the first is written late by the left context: the pooled frame p is the frame p less the left context
    of the whole sequence *)
Theorem C89_left_shift {A B} one (c : conf) r (enc : list A -> list B) h zA zB x : conf_ok c r -> local enc (c_L c) (c_P c) r (c_left c) (c_right c) h ->
  one = true \/ c_left c + c_right c < List.length x -> let s := c_L c - c_left c - c_right c in
  exists y, embed_frames one c enc zA zB x = Ok (combine (mask_of (List.length x / r) (begin_ctx c / r) (end_ctx c / r)) y) /\ List.length y = List.length x / r /\
  forall p, p * r + r + c_right c <= List.length x ->
    (c_left c <= p * r -> p * r < s + c_left c -> nth_error y p = Some (h (window x (p * r - c_left c) (c_left c + r + c_right c)))) /\
    (forall i, 1 <= i -> i * s + 2 * c_left c <= p * r -> p * r < (i + 1) * s + c_left c -> nth_error y p = Some (h (window x (p * r - 2 * c_left c) (c_left c + r + c_right c)))).
Proof.
  intros K LO ON s. destruct (C89_frames one c r enc zA zB x K) as (y & n & E & LY & N1 & N2 & N3 & H). { intros X HX. apply (LO X HX). } { exact ON. }
  exists y. split; [exact E|]. split; [exact LY|]. intros p HP. pose proof K as (R0 & PL & CL & _). fold s in N2, N3, H.
  assert (HP' : p < List.length x / r). { apply Nat.div_le_lower_bound; [lia|]. rewrite Nat.mul_succ_r, Nat.mul_comm. lia. }
  destruct (H p HP') as (i & X & I1 & I2 & I3 & HX & V & PB). clear H. pose proof (out_mul c r i K) as O. fold s in O. assert (O2 : out_start c r (i + 1) * r = (i + 1) * s + c_left c) by (rewrite (out_mul c r (i + 1) K); replace (i + 1) with (S i) by lia; reflexivity).
  assert (IL : out_start c r i * r <= p * r) by (apply Nat.mul_le_mono_r, I2).
  assert (UP : p * r + r <= (i + 1) * s + c_left c).
  { destruct I3 as [I3|I3]; [rewrite <- O2; replace (p * r + r) with (S p * r) by (simpl; lia); apply Nat.mul_le_mono_r; lia|].
    replace (n - 1) with i in N3 by lia. rewrite Nat.mul_add_distr_r, Nat.mul_1_l. unfold s in *. lia. }
  destruct (LO X (proj1 HX)) as (_ & LO').
  set (q := p - out_start c r i) in *. assert (Q : q * r = p * r - out_start c r i * r) by (unfold q; apply Nat.mul_sub_distr_r).
  split.
  - intros L1 L2. assert (i = 0) as ->. { destruct i as [|i]; [reflexivity|]. rewrite O in IL. rewrite Nat.mul_succ_l in IL. pose proof (Nat.le_0_l (i * s)). lia. }
    rewrite O, Nat.sub_0_r in Q. cbn [Nat.add] in UP. rewrite Nat.mul_1_l in UP. rewrite V, LO' by (rewrite Q; unfold s in *; lia). do 2 f_equal.
    rewrite (holds_window X x (c_L c) (0 * s) (q * r - c_left c) (c_left c + r + c_right c) HX) by (rewrite Q; unfold s in *; lia). rewrite Q. reflexivity.
  - intros j J1 J2 J3. assert (i = j) as ->.
    { destruct (Nat.lt_trichotomy i j) as [C|[C|C]]; [|exact C|].
      - assert ((i + 1) * s <= j * s) by (apply Nat.mul_le_mono_r; lia). lia.
      - assert ((j + 1) * s <= i * s) by (apply Nat.mul_le_mono_r; lia). destruct i as [|i]; [lia|]. lia. }
    destruct j as [|j]; [lia|]. rewrite O in Q. set (t := S j * s) in *. rewrite Nat.mul_add_distr_r, Nat.mul_1_l in UP. fold t in UP.
    rewrite V, LO' by (rewrite Q; unfold s in *; lia). do 2 f_equal.
    rewrite (holds_window X x (c_L c) t (q * r - c_left c) (c_left c + r + c_right c) HX) by (rewrite Q; unfold s in *; lia). f_equal. rewrite Q. lia.
Qed.
(** so extraction in chunks is not extraction of the whole sequence: an identity network, one frame of left context, chunks of three frames *)
Theorem C89_left_refuted : exists c enc h (x : list nat) y, conf_ok c 1 /\ local enc (c_L c) (c_P c) 1 (c_left c) (c_right c) h /\ (forall w, h w = nth 1 w 0) /\
  embed_frames true c enc 0 0 x = Ok y /\ c_left c <= begin_ctx c /\ exists p m v, nth_error y p = Some (true, m) /\ nth_error x p = Some v /\ m <> v.
Proof.
  exists (mk_conf 3 3 1 0 None None None), (fun X => X), (fun w => nth 1 w 0), [10; 11; 12; 13; 14; 15], [(false, 10); (true, 11); (true, 12); (true, 12); (true, 13); (true, 14)].
  split; [unfold conf_ok; cbn; repeat split; auto; lia|]. split.
  - intros X L. cbn [c_L c_P c_left c_right] in *. split; [exact L|]. intros p P1 P2. destruct X as [|a [|b [|d [|]]]]; try discriminate. destruct p as [|[|[|p]]]; try lia; reflexivity.
  - split; [reflexivity|]. split; [reflexivity|]. split; [cbn; lia|]. exists 3, 12, 13. split; [reflexivity|]. split; [reflexivity|lia].
Qed.
(** a sequence shorter than the end context keeps frames it should mask *)
Theorem C89_short_refuted : exists c (x : list nat) y, conf_ok c 1 /\ List.length x < end_ctx c /\ embed_frames true c (fun X => X) 0 0 x = Ok y /\ kept y <> [].
Proof. exists (mk_conf 6 6 0 5 None None None), [7; 8; 9], [(true, 7); (false, 8); (false, 9)]. split; [unfold conf_ok; cbn; repeat split; auto; lia|]. split; [cbn; lia|]. split; [reflexivity|discriminate]. Qed.
(** the variant for embeddings with uncertainty evaluates no chunk at all for sequences not longer than both contexts: all frames stay zero *)
Theorem C89_q_short_refuted {A B} (enc : list A -> list B) zA zB a b : exists c y, conf_ok c 1 /\ begin_ctx c = 0 /\ end_ctx c = 0 /\ embed_frames false c enc zA zB [a; b] = Ok y /\ kept y = [zB; zB].
Proof. exists (mk_conf 4 4 1 1 (Some 0) (Some 0) None), [(true, zB); (true, zB)]. split; [unfold conf_ok; cbn; repeat split; auto; lia|]. repeat split. Qed.
Example C89_ex : let c := mk_conf 6 3 0 2 None None None in let enc := fun X : list nat => match X with [a; b; d; e; f; g] => [a + b + d + e; d + e + f + g; f + g] | _ => [] end in
  conf_ok c 2 /\ local enc 6 3 2 0 2 (fun w => fold_right Nat.add 0 w) /\ embed_frames true c enc 0 0 [1; 2; 3; 4; 5; 6; 7; 8; 9; 10] = Ok [(true, 10); (true, 18); (true, 26); (true, 34); (false, 19)].
Proof.
  split; [unfold conf_ok; cbn; repeat split; auto; lia|]. split; [|reflexivity]. intros X L. destruct X as [|a [|b [|d [|e [|f [|g [|]]]]]]]; try discriminate. split; [reflexivity|].
  intros p _ H. destruct p as [|[|[|p]]]; try lia; cbn; f_equal; lia.
Qed.
Print Assumptions C89_embed. Print Assumptions C89_left_shift. Print Assumptions C89_left_refuted.
