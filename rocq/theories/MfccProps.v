(** Windows and the MFCC pipeline (C82). *)
From Coq Require Import Reals Lra Lia Psatz.
From Verif Require Import Base BaseFacts ScoreNorm ScoreNormProps Feats FeatsProps FeatsVad Mfcc.
Open Scope list_scope. Open Scope R_scope.

(** ** Lemmas on columns *)
Lemma col0_cons {T} (a : list T) : forall A, List.length a = List.length A -> col0 (zip_with cons a A) = Ok a.
Proof. induction a as [|v a IH]; intros [|r A] H; try discriminate; [reflexivity|]. unfold col0 in *. simpl in *. rewrite IH by lia. reflexivity. Qed.
Lemma rest_cons {T} (a : list T) : forall A, List.length a = List.length A -> rest (zip_with cons a A) = A.
Proof. induction a as [|v a IH]; intros [|r A] H; try discriminate; [reflexivity|]. unfold rest in *. simpl in *. rewrite IH by lia. reflexivity. Qed.
Lemma col0_rest {T} (A : list (list T)) a : col0 A = Ok a -> A = zip_with cons a (rest A) /\ List.length a = List.length (rest A).
Proof.
  unfold col0, rest. revert a. induction A as [|r A IH]; intros a H; simpl in H; [injection H as <-; split; reflexivity|]. destruct r as [|v r]; [discriminate|]. simpl in H.
  destruct (mapM _ A) as [b|] eqn:E; [|discriminate]. simpl in H. injection H as <-. destruct (IH b eq_refl) as [I1 I2]. simpl. split; [f_equal; exact I1|lia].
Qed.
Lemma set0_ok {T} (A : list (list T)) : forall e B, List.length e = List.length A -> set0 A e = Ok B -> B = zip_with cons e (rest A) /\ exists a, col0 A = Ok a.
Proof.
  unfold set0, col0, rest. induction A as [|r A IH]; intros e B L H; destruct e as [|v e]; simpl in L; try discriminate; simpl in H. { injection H as <-. split; [reflexivity|exists []; reflexivity]. }
  destruct r as [|w r]; [discriminate|]. simpl in H. destruct (mapM _ (combine A e)) as [b|] eqn:E; [|discriminate]. simpl in H. injection H as <-. destruct (IH e b ltac:(lia) E) as [I1 [a I2]]. simpl. rewrite I2. split; [f_equal; exact I1|exists (w :: a); reflexivity].
Qed.
Lemma set0_col0 {T} (A : list (list T)) a e : col0 A = Ok a -> List.length e = List.length A -> set0 A e = Ok (zip_with cons e (rest A)).
Proof.
  unfold set0, col0, rest. revert a e. induction A as [|r A IH]; intros a e H L; destruct e as [|v e]; simpl in L; try discriminate; [reflexivity|]. simpl in *. destruct r as [|w r]; [discriminate|]. simpl in H.
  destruct (mapM _ A) as [b|] eqn:E; [|discriminate]. rewrite (IH b e eq_refl ltac:(lia)). reflexivity.
Qed.
Lemma col0_len {T} (A : list (list T)) a : col0 A = Ok a -> List.length a = List.length A.
Proof. apply mapM_length. Qed.
Lemma col0_map {T U} (f : T -> U) A a : col0 A = Ok a -> col0 (map (map f) A) = Ok (map f a).
Proof. intros H. destruct (col0_rest _ _ H) as [E L]. rewrite E. clear -L. revert L. generalize (rest A). clear A. induction a as [|v a IH]; intros [|r A] L; try discriminate; [reflexivity|]. unfold col0 in *. simpl in *. rewrite IH by lia. reflexivity. Qed.
Lemma rest_map {T U} (f : T -> U) A : rest (map (map f) A) = map (map f) (rest A).
Proof. unfold rest. rewrite !map_map. apply map_ext. intros [|v r]; reflexivity. Qed.
Lemma zip_cons_map {T U} (f : T -> U) a : forall A, map (map f) (zip_with cons a A) = zip_with cons (map f a) (map (map f) A).
Proof. induction a as [|v a IH]; intros [|r A]; try reflexivity. simpl. f_equal. apply IH. Qed.
Lemma rest_len {T} (A : list (list T)) : List.length (rest A) = List.length A. Proof. apply map_length. Qed.
Lemma floored_len c e : List.length (floored c e) = List.length e. Proof. apply map_length. Qed.
Lemma floored_twice c e : floored c (floored c e) = floored c e.
Proof. unfold floored. rewrite map_map. apply map_ext. intros a. rewrite (Rmax_left (Rmax a _)); [reflexivity|apply Rmax_r]. Qed.

(** ** The input *)
Lemma frames_len {Sp} (fft : nat -> list R -> Sp) x L s n w X e : stft fft x L s n w = Ok X -> forall y, List.length y = List.length x -> st_logE y L s = Ok e -> List.length e = List.length X.
Proof.
  unfold stft, st_logE. intros H y E G. rewrite E in G. destruct (num_frames _ _ _) as [nf|]; [|discriminate]. simpl in *. injection G as <-. apply mapM_length in H. rewrite map_length. symmetry. exact H.
Qed.
Lemma dc_len z x : List.length (fst (dc_filter z x)) = List.length x. Proof. apply lfilter_len. Qed.
Lemma pre_len c z x : List.length (fst (preemph c z x)) = List.length x. Proof. apply lfilter_len. Qed.
(** after the input there is one energy per row *)
Lemma input_energy c noise fft st x v st' : input c noise fft st x = Ok (v, st') -> m_in c <> CEPSTRUM ->
  (if m_energy c then exists e, l_E v = Some e /\ (forall F, l_F v = Some F -> List.length e = List.length F) /\ (forall X, l_X v = Some X -> List.length e = List.length X) /\ (forall B, l_B v = Some B -> List.length e = List.length B) else l_E v = None) /\
  (l_F v = None -> m_in c = LOGFB /\ (l_B v = None -> m_energy c = false)) /\ (l_F v <> None -> le (m_in c) LOG_SPEC = true /\ l_B v = None) /\ (l_X v <> None -> le (m_in c) FFT = true /\ l_F v = option_map (map (map cabs)) (l_X v)).
Proof.
  intros H N. unfold input in H. destruct (m_in c) eqn:I; destruct x as [x|X|F]; try discriminate; try congruence.
  - unfold from_wave in H. destruct (prepare _ _ _ _ _ _) as [y|]; [|discriminate]. cbn [bind] in H. set (d := if m_dc c then dc_filter (fst st) y else (y, fst st)) in H.
    assert (LD : List.length (fst d) = List.length y) by (unfold d; destruct (m_dc c); [apply dc_len|reflexivity]). destruct d as [y1 z1]. simpl in LD.
    set (p := if Rlt_dec 0 (m_pre c) then preemph (m_pre c) (snd st) y1 else (y1, snd st)) in H. assert (LP : List.length (fst p) = List.length y1) by (unfold p; destruct (Rlt_dec 0 (m_pre c)); [apply pre_len|reflexivity]). destruct p as [y2 z2]. simpl in LP.
    destruct (m_energy c) eqn:EN; destruct (m_raw c) eqn:RW; cbn [andb negb bind] in H.
    1: destruct (st_logE y1 _ _) as [e|] eqn:SE; [|discriminate]; cbn [bind] in H.
    all: destruct (stft fft y2 _ _ _ _) as [X|] eqn:ST; [|discriminate]; cbn [bind] in H; injection H as <- <-; cbn [l_E l_F l_X l_B].
    + split; [|split; [discriminate|split; [intros _; split; reflexivity|intros _; split; reflexivity]]]. exists e. split; [reflexivity|]. pose proof (frames_len _ _ _ _ _ _ _ _ ST y1 ltac:(lia) SE) as Q.
      split; [intros F0 E0; injection E0 as <-; rewrite map_length; exact Q|]. split; [intros X0 E0; injection E0 as <-; exact Q|discriminate].
    + split; [|split; [discriminate|split; [intros _; split; reflexivity|intros _; split; reflexivity]]]. eexists. split; [reflexivity|]. rewrite map_length. 
      split; [intros F0 E0; injection E0 as <-; reflexivity|]. split; [intros X0 E0; injection E0 as <-; rewrite map_length; reflexivity|discriminate].
    + split; [reflexivity|]. split; [discriminate|split; [intros _; split; reflexivity|intros _; split; reflexivity]].
    + split; [reflexivity|]. split; [discriminate|split; [intros _; split; reflexivity|intros _; split; reflexivity]].
  - unfold energy in H. destruct (m_energy c) eqn:EN; cbn [bind] in H.
    + destruct (col0 _) as [e|] eqn:CE; [|discriminate]. cbn [bind] in H. injection H as <- <-. cbn [l_E l_F l_X l_B]. apply col0_len in CE. split; [|split; [discriminate|split; [intros _; split; reflexivity|intros _; split; reflexivity]]].
      exists e. split; [reflexivity|]. split; [intros F0 E0; injection E0 as <-; exact CE|]. split; [intros X0 E0; injection E0 as <-; rewrite CE; apply map_length|discriminate].
    + injection H as <- <-. cbn [l_E l_F l_X l_B]. split; [reflexivity|split; [discriminate|split; [intros _; split; reflexivity|intros _; split; reflexivity]]].
  - unfold energy in H. destruct (m_energy c) eqn:EN; cbn [bind] in H.
    + destruct (col0 _) as [e|] eqn:CE; [|discriminate]. cbn [bind] in H. injection H as <- <-. cbn [l_E l_F l_X l_B]. apply col0_len in CE. split; [|split; [discriminate|split; [intros _; split; reflexivity|intros Q; contradiction]]].
      exists e. split; [reflexivity|]. split; [intros F0 E0; injection E0 as <-; exact CE|]. split; discriminate.
    + injection H as <- <-. cbn [l_E l_F l_X l_B]. split; [reflexivity|split; [discriminate|split; [intros _; split; reflexivity|intros Q; contradiction]]].
  - unfold energy in H. destruct (m_energy c) eqn:EN; cbn [bind] in H.
    + destruct (col0 _) as [e|] eqn:CE; [|discriminate]. cbn [bind] in H. injection H as <- <-. cbn [l_E l_F l_X l_B]. apply col0_len in CE. split; [|split; [discriminate|split; [intros _; split; reflexivity|intros Q; contradiction]]].
      exists e. split; [reflexivity|]. split; [intros F0 E0; injection E0 as <-; rewrite map_length; exact CE|]. split; discriminate.
    + injection H as <- <-. cbn [l_E l_F l_X l_B]. split; [reflexivity|split; [discriminate|split; [intros _; split; reflexivity|intros Q; contradiction]]].
  - unfold energy in H. destruct (m_energy c) eqn:EN; cbn [bind] in H.
    + destruct (col0 _) as [e|] eqn:CE; [|discriminate]. cbn [bind] in H. injection H as <- <-. cbn [l_E l_F l_X l_B]. apply col0_len in CE. split; [|split; [intros _; split; [reflexivity|discriminate]|split; [intros Q; contradiction|intros Q; contradiction]]].
      exists e. split; [reflexivity|]. split; [discriminate|]. split; [discriminate|]. intros B0 E0. injection E0 as <-. rewrite rest_len. exact CE.
    + injection H as <- <-. cbn [l_E l_F l_X l_B]. split; [reflexivity|split; [intros _; split; reflexivity|split; [intros Q; contradiction|intros Q; contradiction]]].
Qed.
(** the number of rows is kept by the bank *)
Lemma bank_len fb F D : apply_bank fb F = Ok D -> List.length D = List.length F. Proof. apply mapM_length. Qed.
Definition result (r : res outcome) : res data := o <- r ;; Ok (o_R o).
Ltac opens H := unfold compute in H; cbn [flags_ok andb negb] in H.
(** from any earlier step to the log filter bank and on to the cepstrum is the whole way (with use_energy: without it see C82_logfb_refuted) *)
Theorem C82_via_logfb c a noise fft dct st st2 x o : m_energy c = true -> compute (steps c a LOGFB) noise fft dct false false false st x = Ok o ->
  result (compute (steps c LOGFB CEPSTRUM) noise fft dct false false false st2 (o_R o)) = result (compute (steps c a CEPSTRUM) noise fft dct false false false st x).
Proof.
  intros EN H. assert (NC : a <> CEPSTRUM). { intros ->. unfold compute in H. simpl in H. discriminate. }
  unfold compute in H. change (flags_ok _ false false false) with true in H. cbn [negb] in H. unfold compute at 2. change (flags_ok _ false false false) with true. cbn [negb].
  change (input (steps c a CEPSTRUM) noise fft st x) with (input (steps c a LOGFB) noise fft st x). destruct (input (steps c a LOGFB) noise fft st x) as [[v st']|] eqn:I; [|discriminate]. cbn [bind] in H |- *.
  change (squared (steps c a CEPSTRUM)) with (squared (steps c a LOGFB)). change (log_bank (steps c a CEPSTRUM)) with (log_bank (steps c a LOGFB)).
  destruct (input_energy _ _ _ _ _ _ _ I NC) as (I1 & I2 & I3 & I4). cbn [m_energy m_in steps] in I1, I2, I3, I4. rewrite EN in I1. destruct I1 as (e & E1 & E2 & E3 & E4).
  destruct (log_bank (steps c a LOGFB) (squared (steps c a LOGFB) (l_F v)) (l_B v)) as [B|] eqn:LB; [|discriminate]. cbn [bind] in H |- *.
  assert (CP : cepstra (steps c a LOGFB) dct B = Ok None) by (unfold cepstra; cbn [m_in m_out steps]; rewrite andb_false_r; reflexivity). rewrite CP in H. cbn [bind m_out steps m_energy] in H. rewrite E1, EN in H.
  destruct B as [B|]; [|discriminate]. cbn [bound bind option_map] in H. injection H as <-. cbn [o_R].
  assert (LE : List.length e = List.length B).
  { unfold log_bank in LB. destruct (_ && _) eqn:Q in LB.
    - unfold squared in LB. destruct (l_F v) as [F|] eqn:LF; [|destruct (_ && _ && _) in LB; discriminate]. assert (X : exists G, (if le (m_in (steps c a LOGFB)) FFT && le FFT_MAG (m_out (steps c a LOGFB)) && m_fft2 (steps c a LOGFB) then option_map (map (map (fun a => a ^ 2))) (Some F) else Some F) = Some G /\ List.length G = List.length F) by (destruct (_ && _ && _); eexists; (split; [reflexivity|]); [apply map_length|reflexivity]).
      destruct X as (G & X1 & X2). rewrite X1 in LB. cbn [bound bind] in LB. destruct (apply_bank _ G) as [D|] eqn:AB; [|discriminate]. cbn [bind] in LB. injection LB as <-. rewrite map_length, (bank_len _ _ _ AB), X2. apply E2. reflexivity.
    - injection LB as LB. apply E4. exact LB. }
  assert (FL : List.length (floored (steps c a LOGFB) e) = List.length B) by (rewrite floored_len; exact LE).
  unfold compute. change (flags_ok _ false false false) with true. cbn [negb input m_in steps]. unfold energy. cbn [m_energy steps]. rewrite EN. rewrite col0_cons, rest_cons by exact FL. cbn [bind l_B l_E l_F].
  unfold log_bank at 1. cbn [m_in m_out steps le value Nat.leb andb bind].
  assert (CC : cepstra (steps c LOGFB CEPSTRUM) dct (Some B) = cepstra (steps c a CEPSTRUM) dct (Some B)). { unfold cepstra. cbn [m_in m_out steps]. destruct a; try reflexivity. congruence. } rewrite CC.
  clear CP CC. destruct (cepstra _ dct (Some B)) as [P|]; [|reflexivity]. cbn [bind m_out steps]. destruct P as [P|]; [|reflexivity]. cbn [bound bind]. unfold put. cbn [m_energy steps]. rewrite EN, E1. cbn [bound bind].
  change (floored (steps c LOGFB CEPSTRUM) (floored (steps c a LOGFB) e)) with (floored c (floored c e)). change (floored (steps c a CEPSTRUM) e) with (floored c e). rewrite floored_twice. destruct (set0 P _); reflexivity.
Qed.
(** without use_energy the cepstrum cannot be computed from the log filter bank: the input is never read *)
Theorem C82_logfb_refuted c noise fft dct rf rm rb st x : m_energy c = false -> flags_ok (steps c LOGFB CEPSTRUM) rf rm rb = true ->
  compute (steps c LOGFB CEPSTRUM) noise fft dct rf rm rb st (Rows x) = Err UnboundLocalError.
Proof. intros EN FO. unfold compute. rewrite FO. cbn [negb input m_in steps]. unfold energy. cbn [m_energy steps]. rewrite EN. reflexivity. Qed.
(** ** Through the magnitudes *)
(** every filter gives weight 0 to the first bin, as those of mel_kaldi with low_freq >= 0 do (C81_first_bin) *)
Definition no_first_bin (fb : list (list R)) : Prop := forall w, In w fb -> exists t, w = 0 :: t.
Lemma dot_first v v' r w : (exists t, w = 0 :: t) -> dot (v :: r) w = dot (v' :: r) w.
Proof. intros [t ->]. unfold dot, Rsum. simpl. ring. Qed.
Lemma bank_first fb : no_first_bin fb -> forall A a b, List.length a = List.length A -> List.length b = List.length A -> apply_bank fb (zip_with cons a A) = apply_bank fb (zip_with cons b A).
Proof.
  intros N. unfold apply_bank. induction A as [|r A IH]; intros [|v a] [|w b] La Lb; try discriminate; [reflexivity|]. simpl in La, Lb. cbn [Mat.zip_with mapM]. rewrite (IH a b) by lia. cbn [List.length].
  replace (map (dot (v :: r)) fb) with (map (dot (w :: r)) fb); [reflexivity|]. apply map_ext_in. intros t T. apply dot_first. apply N. exact T.
Qed.
Lemma map_id_id {A} (l : list A) : map (fun a => a) l = l. Proof. apply map_id. Qed.
(** the magnitudes and then the rest: the same, if the filters do not look at the first bin, where the energy is kept, or there is no energy *)
Theorem C82_via_fft_mag c a b noise fft dct st st2 x o : (m_energy c = true -> no_first_bin (m_fb c)) -> b = LOGFB \/ b = CEPSTRUM ->
  compute (steps c a FFT_MAG) noise fft dct false false false st x = Ok o ->
  result (compute (steps c FFT_MAG b) noise fft dct false false false st2 (o_R o)) = result (compute (steps c a b) noise fft dct false false false st x).
Proof.
  intros NB HB H. assert (NC : a <> CEPSTRUM). { intros ->. unfold compute in H. simpl in H. discriminate. }
  unfold compute in H. change (flags_ok _ false false false) with true in H. cbn [negb] in H. unfold compute at 2. change (flags_ok _ false false false) with true. cbn [negb].
  change (input (steps c a b) noise fft st x) with (input (steps c a FFT_MAG) noise fft st x). destruct (input (steps c a FFT_MAG) noise fft st x) as [[v st']|] eqn:I; [|discriminate]. cbn [bind] in H |- *.
  assert (SQ : squared (steps c a b) (l_F v) = squared (steps c a FFT_MAG) (l_F v)) by (unfold squared; cbn [m_in m_out m_fft2 steps]; destruct HB as [->| ->]; reflexivity). rewrite SQ.
  destruct (input_energy _ _ _ _ _ _ _ I NC) as (I1 & I2 & I3 & I4). cbn [m_energy m_in steps] in I1, I2, I3, I4.
  assert (LB0 : log_bank (steps c a FFT_MAG) (squared (steps c a FFT_MAG) (l_F v)) (l_B v) = Ok (l_B v)) by (unfold log_bank; cbn [m_in m_out steps]; rewrite andb_false_r; reflexivity). rewrite LB0 in H. cbn [bind] in H.
  assert (CP : cepstra (steps c a FFT_MAG) dct (l_B v) = Ok None) by (unfold cepstra; cbn [m_in m_out steps]; rewrite andb_false_r; reflexivity). rewrite CP in H. cbn [bind m_out steps] in H.
  destruct (l_F v) as [F0|] eqn:LF; [|unfold squared in H; destruct (_ && _ && _) in H; discriminate]. destruct (I3 ltac:(discriminate)) as [LA LBv].
  assert (X : exists G, squared (steps c a FFT_MAG) (Some F0) = Some G /\ List.length G = List.length F0) by (unfold squared; destruct (_ && _ && _); eexists; (split; [reflexivity|]); [apply map_length|reflexivity]). destruct X as (F & X1 & X2). rewrite X1 in H |- *. cbn [bound bind] in H |- *.
  assert (LBF : log_bank (steps c a b) (Some F) (l_B v) = (D <- apply_bank (m_fb c) F ;; Ok (Some (map (map (fun a => ln (a + / 10 ^ 10))) D)))).
  { unfold log_bank. cbn [m_in m_out steps m_fb]. rewrite LA. destruct HB as [->| ->]; reflexivity. } rewrite LBF.
  unfold put in H. cbn [m_energy steps] in H. destruct (m_energy c) eqn:EN.
  - destruct I1 as (e & E1 & E2 & _). rewrite E1 in H. cbn [bound bind] in H. rewrite map_id_id in H. change (floored (steps c a FFT_MAG) e) with (floored c e) in H.
    assert (LE : List.length (floored c e) = List.length F) by (rewrite floored_len, X2; apply E2; reflexivity).
    destruct (set0 F (floored c e)) as [A|] eqn:S0; [|discriminate]. cbn [bind] in H. injection H as <-. cbn [o_R]. destruct (set0_ok _ _ _ LE S0) as [-> [f CF]].
    destruct (col0_rest _ _ CF) as [FE LF2]. assert (AB : apply_bank (m_fb c) (zip_with cons (floored c e) (rest F)) = apply_bank (m_fb c) F).
    { rewrite FE at 2. apply bank_first; [apply NB; reflexivity| |exact LF2]. rewrite rest_len. exact LE. }
    unfold compute. change (flags_ok _ false false false) with true. cbn [negb input m_in steps]. unfold energy. cbn [m_energy steps]. rewrite EN. rewrite col0_cons by (rewrite rest_len; exact LE). cbn [bind l_B l_E l_F l_X].
    assert (S2 : forall G, squared (steps c FFT_MAG b) G = G) by (intros; reflexivity). rewrite S2.
    assert (LB2 : log_bank (steps c FFT_MAG b) (Some (zip_with cons (floored c e) (rest F))) None = (D <- apply_bank (m_fb c) F ;; Ok (Some (map (map (fun a => ln (a + / 10 ^ 10))) D)))).
    { unfold log_bank. cbn [m_in m_out steps m_fb]. destruct HB as [->| ->]; cbn [le value Nat.leb andb bound bind]; rewrite AB; reflexivity. } rewrite LB2.
    destruct (apply_bank (m_fb c) F) as [D|]; [|reflexivity]. cbn [bind].
    assert (CC : forall B, cepstra (steps c FFT_MAG b) dct B = cepstra (steps c a b) dct B). { intros B. unfold cepstra. cbn [m_in m_out steps]. destruct a; try reflexivity; discriminate. } rewrite CC.
    clear CP. destruct (cepstra _ dct _) as [P|]; [|reflexivity]. cbn [bind]. rewrite E1. destruct HB as [->| ->]; cbn [m_out steps m_energy bound bind].
    + try rewrite EN. cbn [bound bind]. change (floored (steps c FFT_MAG LOGFB) (floored c e)) with (floored c (floored c e)). rewrite floored_twice. reflexivity.
    + unfold put. cbn [m_energy steps]. try rewrite EN. destruct P as [P|]; [|reflexivity]. cbn [bound bind]. change (floored (steps c FFT_MAG CEPSTRUM) (floored c e)) with (floored c (floored c e)). rewrite floored_twice. change (floored (steps c a CEPSTRUM) e) with (floored c e). destruct (set0 P _); reflexivity.
  - cbn [bind] in H. injection H as <-. cbn [o_R]. unfold compute. change (flags_ok _ false false false) with true. cbn [negb input m_in steps]. unfold energy. cbn [m_energy steps]. rewrite EN. cbn [bind l_B l_E l_F l_X].
    assert (S2 : forall G, squared (steps c FFT_MAG b) G = G) by (intros; reflexivity). rewrite S2.
    assert (LB2 : log_bank (steps c FFT_MAG b) (Some F) None = (D <- apply_bank (m_fb c) F ;; Ok (Some (map (map (fun a => ln (a + / 10 ^ 10))) D)))).
    { unfold log_bank. cbn [m_in m_out steps m_fb]. destruct HB as [->| ->]; reflexivity. } rewrite LB2.
    destruct (apply_bank (m_fb c) F) as [D|]; [|reflexivity]. cbn [bind].
    assert (CC : forall B, cepstra (steps c FFT_MAG b) dct B = cepstra (steps c a b) dct B). { intros B. unfold cepstra. cbn [m_in m_out steps]. destruct a; try reflexivity; discriminate. } rewrite CC.
    clear CP. destruct (cepstra _ dct _) as [P|]; [|reflexivity]. cbn [bind]. destruct HB as [->| ->]; cbn [m_out steps m_energy bound bind].
    + reflexivity.
    + unfold put. cbn [m_energy steps]. try rewrite EN. destruct P as [P|]; reflexivity.
Qed.
(** ** Through the complex spectrum *)
Lemma cabs_real a : cabs (a, 0) = Rabs a.
Proof. unfold cabs. simpl. rewrite Rmult_0_l, Rplus_0_r. apply sqrt_Rsqr_abs. Qed.
Lemma sq_cons c a A : squared c (Some (zip_with cons a A)) = Some (zip_with cons (if le (m_in c) FFT && le FFT_MAG (m_out c) && m_fft2 c then map (fun v => v ^ 2) a else a) (if le (m_in c) FFT && le FFT_MAG (m_out c) && m_fft2 c then map (map (fun v => v ^ 2)) A else A)).
Proof. unfold squared. destruct (_ && _ && _); [|reflexivity]. cbn [option_map]. rewrite zip_cons_map. reflexivity. Qed.
(** without energy it is the same; with it, the energy column becomes the absolute value of the energies, floored again *)
Theorem C82_via_fft c a b noise fft dct st st2 x o : b = LOGFB \/ b = CEPSTRUM ->
  compute (steps c a FFT) noise fft dct false false false st x = Ok o ->
  let two := result (compute (steps c FFT b) noise fft dct false false false st2 (o_R o)) in
  let one := result (compute (steps c a b) noise fft dct false false false st x) in
  (m_energy c = false -> two = one) /\
  (m_energy c = true -> no_first_bin (m_fb c) -> forall D, one = Ok (Rows D) -> exists D' e, two = Ok (Rows D') /\ rest D' = rest D /\ col0 D = Ok e /\
    col0 D' = Ok (map (fun v => Rmax (Rabs v) (ln (m_floor c + / 10 ^ 15))) e)).
Proof.
  intros HB H two one. subst two one. assert (NC : a <> CEPSTRUM). { intros ->. unfold compute in H. simpl in H. discriminate. }
  unfold compute in H. change (flags_ok _ false false false) with true in H. cbn [negb] in H. unfold compute. change (flags_ok _ false false false) with true. change (flags_ok _ false false false) with true. cbn [negb].
  change (input (steps c a b) noise fft st x) with (input (steps c a FFT) noise fft st x). destruct (input (steps c a FFT) noise fft st x) as [[v st']|] eqn:I; [|discriminate]. cbn [bind] in H |- *.
  destruct (input_energy _ _ _ _ _ _ _ I NC) as (I1 & I2 & I3 & I4). cbn [m_energy m_in steps] in I1, I2, I3, I4.
  assert (LB0 : log_bank (steps c a FFT) (squared (steps c a FFT) (l_F v)) (l_B v) = Ok (l_B v)) by (unfold log_bank; cbn [m_in m_out steps]; rewrite andb_false_r; reflexivity). rewrite LB0 in H. cbn [bind] in H.
  assert (CP : cepstra (steps c a FFT) dct (l_B v) = Ok None) by (unfold cepstra; cbn [m_in m_out steps]; rewrite andb_false_r; reflexivity). rewrite CP in H. cbn [bind m_out steps] in H. clear LB0 CP.
  destruct (l_X v) as [X|] eqn:LX; [|discriminate]. destruct (I4 ltac:(discriminate)) as [AF LF]. cbn [option_map] in LF. set (F := map (map cabs) X) in *. rewrite LF in *. cbn [bound bind] in H.
  assert (LA : le a LOG_SPEC = true) by (destruct a; try reflexivity; discriminate). assert (LBv : l_B v = None) by (apply I3; discriminate).
  assert (LB : forall a0 F, le a0 LOG_SPEC = true -> log_bank (steps c a0 b) (Some F) None = (D <- apply_bank (m_fb c) F ;; Ok (Some (map (map (fun a => ln (a + / 10 ^ 10))) D)))).
  { intros a0 G Q. unfold log_bank. cbn [m_in m_out steps m_fb]. rewrite Q. destruct HB as [->| ->]; reflexivity. }
  assert (SQ : forall G, squared (steps c FFT b) G = squared (steps c a b) G) by (intros; unfold squared; cbn [m_in m_out m_fft2 steps]; destruct a; try discriminate; reflexivity).
  assert (CC : forall B, cepstra (steps c FFT b) dct B = cepstra (steps c a b) dct B) by (intros B; unfold cepstra; cbn [m_in m_out steps]; destruct a; try reflexivity; discriminate).
  rewrite LBv. unfold put in H. cbn [m_energy steps] in H. destruct (m_energy c) eqn:EN.
  - split; [discriminate|]. intros _ NB D HD. destruct I1 as (e & E1 & E2 & E3 & _). rewrite E1 in H. cbn [bound bind] in H. change (floored (steps c a FFT) e) with (floored c e) in H.
    assert (LE : List.length (map (fun a => (a, 0) : C) (floored c e)) = List.length X) by (rewrite map_length, floored_len; apply E3; reflexivity).
    destruct (set0 X (map (fun a : R => (a, 0) : C) (floored c e))) as [A|] eqn:S0; [|discriminate H]. cbn [bind] in H. injection H as <-. cbn [o_R]. destruct (set0_ok _ _ _ LE S0) as [-> [f CF]]. clear S0.
    cbn [input m_in steps]. assert (FA : map (map cabs) (zip_with cons (map (fun a => (a, 0) : C) (floored c e)) (rest X)) = zip_with cons (map Rabs (floored c e)) (rest F)).
    { rewrite zip_cons_map, map_map, (map_ext (fun x => cabs (x, 0)) Rabs) by (intros; apply cabs_real). unfold F. rewrite rest_map. reflexivity. }
    assert (LR : List.length (map Rabs (floored c e)) = List.length (rest F)) by (rewrite map_length, rest_len, floored_len; unfold F; rewrite map_length; apply E3; reflexivity).
    rewrite FA. unfold energy. cbn [m_energy steps]. rewrite EN, col0_cons by exact LR. cbn [bind l_F l_B l_E l_X]. rewrite SQ, sq_cons. cbn [m_in m_out m_fft2 steps].
    assert (CF' : col0 F = Ok (map cabs f)) by (apply col0_map; exact CF). destruct (col0_rest _ _ CF') as [FE FL].
    assert (SF : squared (steps c a b) (Some F) = Some (zip_with cons (if le a FFT && le FFT_MAG b && m_fft2 c then map (fun v => v ^ 2) (map cabs f) else map cabs f) (if le a FFT && le FFT_MAG b && m_fft2 c then map (map (fun v => v ^ 2)) (rest F) else rest F))).
    { rewrite FE at 1. rewrite sq_cons. reflexivity. }
    rewrite SF in HD. set (q := le a FFT && le FFT_MAG b && m_fft2 c) in *. rewrite LB in HD by exact LA. rewrite (LB FFT) by reflexivity.
    rewrite (bank_first (m_fb c) NB _ (if q then map (fun v => v ^ 2) (map Rabs (floored c e)) else map Rabs (floored c e)) (if q then map (fun v => v ^ 2) (map cabs f) else map cabs f)).
    2,3: destruct q; rewrite ?map_length in *; first [exact LR | exact FL].
    destruct (apply_bank (m_fb c) _) as [G|] eqn:AB; [|discriminate]. cbn [bind] in HD |- *. set (B := map (map (fun a => ln (a + / 10 ^ 10))) G) in *. 
    assert (LG : List.length e = List.length B). { unfold B. rewrite map_length, (bank_len _ _ _ AB). clear -LR FL. rewrite map_length, floored_len in LR. rewrite LR. assert (Z : forall T (a : list T) A, List.length a = List.length A -> List.length (zip_with cons a A) = List.length A). { intros T l. induction l as [|u l IH]; intros [|r A] Q; try discriminate; [reflexivity|]. simpl in *. f_equal. apply IH. lia. } rewrite Z; destruct q; rewrite ?map_length in *; lia. }
    rewrite CC. destruct (cepstra _ dct (Some B)) as [P|] eqn:CE; [|discriminate]. cbn [bind] in HD |- *. rewrite E1 in HD.
    assert (TW : floored c (map Rabs (floored c e)) = map (fun v => Rmax (Rabs v) (ln (m_floor c + / 10 ^ 15))) (floored c e)) by (unfold floored; rewrite !map_map; reflexivity).
    destruct HB as [->| ->]; cbn [m_out m_energy steps bound bind] in HD |- *.
    + rewrite EN in HD. try rewrite EN. unfold result in HD |- *. cbn [bind o_R] in HD |- *. injection HD as <-. exists (zip_with cons (floored c (map Rabs (floored c e))) B), (floored c e). change (floored (steps c a LOGFB) e) with (floored c e). split; [reflexivity|].
      rewrite !rest_cons, !col0_cons; rewrite ?floored_len, ?map_length, ?floored_len; try exact LG. rewrite <- TW. split; [reflexivity|]. split; reflexivity.
    + unfold put in HD |- *. cbn [m_energy steps] in HD |- *. rewrite ?EN in HD. rewrite ?EN. destruct P as [P|]; [|discriminate]. cbn [bound bind] in HD |- *. change (floored (steps c a CEPSTRUM) e) with (floored c e) in HD. rewrite map_id_id in HD |- *. change (floored (steps c FFT CEPSTRUM) (map Rabs (floored c e))) with (floored c (map Rabs (floored c e))).
      assert (LP : List.length P = List.length B).
      { unfold cepstra in CE. destruct (_ && _) in CE; [|discriminate]. cbn [bound bind] in CE. destruct (Rlt_dec 0 _) in CE; [|injection CE as <-; apply map_length]. destruct (mapM _ _) as [P'|] eqn:MP in CE; [|discriminate]. cbn [bind] in CE. injection CE as <-. rewrite (mapM_length _ _ _ MP). apply map_length. }
      destruct (set0 P (floored c e)) as [D0|] eqn:S1; [|discriminate]. unfold result in HD; cbn [bind o_R] in HD. injection HD as <-. destruct (set0_ok P (floored c e) D0 ltac:(rewrite floored_len; lia) S1) as [-> [p CP]].
      rewrite (set0_col0 P p) by (try exact CP; rewrite floored_len, map_length, floored_len; lia). unfold result; cbn [bind o_R]. exists (zip_with cons (floored c (map Rabs (floored c e))) (rest P)), (floored c e). split; [reflexivity|].
      rewrite !rest_cons, !col0_cons; rewrite ?floored_len, ?map_length, ?floored_len, ?rest_len; try lia. rewrite <- TW. split; [reflexivity|]. split; reflexivity.
  - split; [|discriminate]. intros _. cbn [bind] in H. injection H as <-. cbn [o_R input m_in steps]. unfold energy. cbn [m_energy steps]. rewrite EN. cbn [bind l_F l_B l_E l_X]. fold F. rewrite SQ.
    assert (X0 : exists G, squared (steps c a b) (Some F) = Some G) by (unfold squared; destruct (_ && _ && _); eexists; reflexivity). destruct X0 as [G X0]. rewrite X0, !LB by (try reflexivity; exact LA).
    destruct (apply_bank _ G) as [D|]; [|reflexivity]. cbn [bind]. rewrite CC. destruct (cepstra _ dct _) as [P|]; [|reflexivity]. cbn [bind]. destruct HB as [->| ->]; cbn [m_out m_energy steps bound bind].
    + reflexivity. + unfold put. cbn [m_energy steps]. destruct P as [P|]; [|reflexivity]. cbn [bound bind]. try rewrite EN. reflexivity.
Qed.
(** a quiet frame (log energy below 0) is changed *)
Theorem C82_fft_stage_refuted : exists c x, m_energy c = true /\ no_first_bin (m_fb c) /\
  forall noise fft dct st, (forall r, dct r = r) -> (forall n y, fft n y = [(Rsum y, 0); (Rsum y, 0)]) ->
  exists o, compute (steps c WAVE FFT) noise fft dct false false false st (Wave x) = Ok o /\
  result (compute (steps c FFT CEPSTRUM) noise fft dct false false false st (o_R o)) <> result (compute (steps c WAVE CEPSTRUM) noise fft dct false false false st (Wave x)).
Proof.
  exists (mk_mfcc WAVE CEPSTRUM 1 1 2 true 0 false 0 [1] true true true 0 [[0; 1]] 1 0), [/ 2]. split; [reflexivity|]. split; [intros w [<-|[]]; exists [1]; reflexivity|]. intros noise fft dct st HD HF.
  set (c := mk_mfcc _ _ _ _ _ _ _ _ _ _ _ _ _ _ _ _ _).
  assert (PR : prepare true 1 1 0 noise [/ 2] = Ok [/ 2]) by (unfold prepare; simpl; destruct (Rlt_dec 0 0); [lra|reflexivity]).
  assert (FW : forall b, from_wave (steps c WAVE b) noise fft st [/ 2] = Ok (mk_locals (Some [[(/ 2, 0); (/ 2, 0)]]) (Some [[cabs (/ 2, 0); cabs (/ 2, 0)]]) (Some [ln (/ 4 + / 10 ^ 15)]) None, st)).
  { intros b. unfold from_wave. cbn [m_snip m_L m_s m_dither steps c m_dc m_energy m_raw m_pre m_nfft m_win andb negb]. rewrite PR. cbn [bind]. destruct (Rlt_dec 0 0); [lra|]. assert (NF : forall y : list R, List.length y = 1%nat -> num_frames (List.length y) 1 1 = Ok 1%nat) by (intros y ->; reflexivity). unfold st_logE, stft. rewrite NF by reflexivity. cbn [bind seq map mapM frame Nat.mul firstn skipn windowed List.length Nat.eqb Mat.zip_with].
    rewrite HF. unfold Rsum. simpl. destruct st as [z1 z2]. simpl. repeat f_equal; unfold Rsqr; try field. }
  set (e := ln (/ 4 + / 10 ^ 15)) in *. assert (E0 : e < 0) by (unfold e; rewrite <- ln_1; apply ln_increasing; lra). set (fl := ln (0 + / 10 ^ 15)). assert (FE : fl < e) by (unfold fl, e; apply ln_increasing; lra).
  assert (ST : compute (steps c WAVE FFT) noise fft dct false false false st (Wave [/ 2]) = Ok (mk_outcome (Spec [[(Rmax e fl, 0); (/ 2, 0)]]) None None None (Wave [/ 2]) st)).
  { unfold compute. change (flags_ok _ _ _ _) with true. cbn [negb input m_in steps]. rewrite FW. reflexivity. }
  exists (mk_outcome (Spec [[(Rmax e fl, 0); (/ 2, 0)]]) None None None (Wave [/ 2]) st). split; [exact ST|]. intros Q.
  destruct (proj2 (C82_via_fft c WAVE CEPSTRUM noise fft dct st st _ _ (or_intror eq_refl) ST) eq_refl ltac:(intros w [<-|[]]; exists [1]; reflexivity) [[Rmax e fl]]) as (D' & e' & T1 & _ & T3 & T4).
  { unfold compute. change (flags_ok _ _ _ _) with true. cbn [negb input m_in steps]. rewrite FW. cbn [bind l_F l_B l_E l_X]. unfold squared. cbn [m_in m_out m_fft2 steps c le value Nat.leb andb option_map map]. unfold log_bank. cbn [m_in m_out steps c le value Nat.leb andb bound bind m_fb apply_bank mapM forallb List.length Nat.eqb map].
    unfold cepstra. cbn [m_in m_out steps c le value Nat.leb andb eqs Nat.eqb bound bind m_nceps m_lift map]. destruct (Rlt_dec 0 0); [lra|]. rewrite HD. reflexivity. }
  rewrite Q in T1. clear Q. unfold compute in T1. change (flags_ok _ _ _ _) with true in T1. cbn [negb input m_in steps] in T1. rewrite FW in T1. cbn [bind l_F l_B l_E l_X] in T1. unfold squared in T1. cbn [m_in m_out m_fft2 steps c le value Nat.leb andb option_map map] in T1. unfold log_bank in T1. cbn [m_in m_out steps c le value Nat.leb andb bound bind m_fb apply_bank mapM forallb List.length Nat.eqb map] in T1.
  unfold cepstra in T1. cbn [m_in m_out steps c le value Nat.leb andb eqs Nat.eqb bound bind m_nceps m_lift map] in T1. destruct (Rlt_dec 0 0); [lra|]. rewrite HD in T1.
  cbn in T1. injection T1 as <-. cbn in T3, T4. injection T3 as <-. injection T4 as T4. set (f2 := ln (0 + / (10 * _))) in T4. assert (f2 = fl) as F2 by (unfold f2, fl; repeat f_equal). clearbody f2. subst f2. rewrite (Rmax_left e fl) in T4 by lra. rewrite Rabs_left in T4 by lra. rewrite Rmax_left in T4 by lra. lra.
Qed.
(** ** Which pairs of steps can be computed *)
(** an array of the kind and shape that the input step asks for *)
Definition rows_of {T} (n : nat) (A : list (list T)) : Prop := forall r, In r A -> List.length r = n.
Definition shaped (c : mfcc) (bins : nat) (x : data) : Prop :=
  match m_in c, x with
  | WAVE, Wave y => m_snip c = true /\ (0 < m_s c)%nat /\ (m_L c <= List.length y + m_s c)%nat /\ List.length (m_win c) = m_L c /\ ~ 0 < m_dither c
  | FFT, Spec X => rows_of bins X
  | FFT_MAG, Rows F | LOG_SPEC, Rows F => rows_of bins F
  | LOGFB, Rows B => rows_of (if m_energy c then S (List.length (m_fb c)) else List.length (m_fb c)) B
  | CEPSTRUM, _ => True
  | _, _ => False
  end.
Definition consistent (c : mfcc) (bins : nat) (fft : nat -> list R -> list C) (dct : list R -> list R) : Prop :=
  (0 < bins)%nat /\ rows_of bins (m_fb c) /\ (forall n y, List.length (fft n y) = bins) /\ (forall r, List.length (dct r) = List.length r) /\ (0 < m_nceps c <= List.length (m_fb c))%nat.
(** the pairs (input step, output step) for which the output is computed at all *)
Definition computable (use_energy : bool) (a b : step) : bool :=
  match a, b with
  | _, WAVE | CEPSTRUM, _ => false
  | WAVE, _ | FFT, _ => true
  | FFT_MAG, FFT | LOG_SPEC, FFT | LOGFB, FFT | LOGFB, FFT_MAG | LOGFB, LOG_SPEC => false
  | LOGFB, _ => use_energy
  | _, _ => true
  end.
Lemma col0_some {T} n (A : list (list T)) : (0 < n)%nat -> rows_of n A -> exists a, col0 A = Ok a /\ List.length a = List.length A.
Proof.
  intros N H. assert (exists a, col0 A = Ok a) as [a E]. { unfold rows_of, col0 in *. induction A as [|r A IH]; [exists []; reflexivity|]. destruct IH as [a IH]; [intros; apply H; right; assumption|]. pose proof (H r (or_introl eq_refl)). destruct r as [|v r]; [simpl in *; lia|]. simpl. rewrite IH. eexists. reflexivity. }
  exists a. split; [exact E|]. apply col0_len. exact E.
Qed.
Lemma rows_map {T U} (f : T -> U) n A : rows_of n A -> rows_of n (map (map f) A).
Proof. intros H r I. apply in_map_iff in I. destruct I as (q & <- & I). rewrite map_length. apply H. exact I. Qed.
Lemma bank_ok bins fb F : rows_of bins fb -> rows_of bins F -> apply_bank fb F = Ok (map (fun r => map (dot r) fb) F).
Proof.
  intros H G. apply mapM_pure. intros r I. assert (forallb (fun w => Nat.eqb (List.length w) (List.length r)) fb = true) as ->; [|reflexivity]. apply forallb_forall. intros w W. apply Nat.eqb_eq. rewrite (H w W), (G r I). reflexivity.
Qed.
(** after a shaped input: what is bound and its shape *)
Lemma shaped_input c bins noise fft dct st x : shaped c bins x -> consistent c bins fft dct ->
  exists v st', input c noise fft st x = Ok (v, st') /\
  (forall X, l_X v = Some X -> rows_of bins X) /\ (forall F, l_F v = Some F -> rows_of bins F) /\ (forall B, l_B v = Some B -> rows_of (List.length (m_fb c)) B) /\
  (l_X v <> None <-> le (m_in c) FFT = true) /\ (l_F v <> None <-> le (m_in c) LOG_SPEC = true) /\ (l_B v <> None <-> m_in c = LOGFB /\ m_energy c = true) /\ (m_in c = CEPSTRUM -> l_E v = None).
Proof.
  intros SH (C1 & C2 & C3 & C4 & C5). unfold input, shaped in *. destruct (m_in c) eqn:I; destruct x as [x|X|F]; try contradiction.
  - destruct SH as (S1 & S2 & S3 & S4 & S5). unfold from_wave. assert (PR : prepare (m_snip c) (m_L c) (m_s c) (m_dither c) noise x = Ok x). { unfold prepare. rewrite S1. destruct (Nat.eqb_spec (m_s c) 0); [lia|]. cbn [bind]. destruct (Rlt_dec 0 (m_dither c)); [contradiction|reflexivity]. }
    rewrite PR. cbn [bind]. set (d := if m_dc c then dc_filter (fst st) x else (x, fst st)). assert (LD : List.length (fst d) = List.length x) by (unfold d; destruct (m_dc c); [apply dc_len|reflexivity]). destruct d as [y1 z1]. simpl in LD.
    set (p := if Rlt_dec 0 (m_pre c) then preemph (m_pre c) (snd st) y1 else (y1, snd st)). assert (LP : List.length (fst p) = List.length y1) by (unfold p; destruct (Rlt_dec 0 (m_pre c)); [apply pre_len|reflexivity]). destruct p as [y2 z2]. simpl in LP.
    destruct (C79_log_energy y1 (m_L c) (m_s c) S2 ltac:(lia)) as (nf1 & LE1 & _). destruct (C79_stft fft y2 (m_L c) (m_s c) (m_nfft c) (Some (m_win c)) S2 ltac:(lia) S4) as (nf & ST & _).
    set (e1 := if m_energy c && m_raw c then _ else _). assert (X1 : exists e, e1 = Ok e) by (unfold e1; destruct (_ && _); [rewrite LE1; eexists; reflexivity|eexists; reflexivity]). destruct X1 as [e X1]. rewrite X1. cbn [bind]. rewrite ST. cbn [bind].
    eexists _, _. split; [reflexivity|]. cbn [l_X l_F l_B l_E]. assert (RX : rows_of bins (map (fun i => fft (m_nfft c) (frame_win y2 (m_L c) (m_s c) (Some (m_win c)) i)) (seq 0 nf))) by (intros r Q; apply in_map_iff in Q; destruct Q as (i & <- & _); apply C3).
    split; [intros X E; injection E as <-; exact RX|]. split; [intros F E; injection E as <-; apply rows_map; exact RX|]. split; [discriminate|]. split; [split; [reflexivity|discriminate]|]. split; [split; [reflexivity|discriminate]|]. split; [split; [intros Q; contradiction|intros [Q _]; discriminate]|discriminate].
  - unfold energy. destruct (m_energy c) eqn:EN; [destruct (col0_some bins (map (map cabs) X) C1 ltac:(apply rows_map; exact SH)) as (e & CE & _); rewrite CE|]; cbn [bind]; eexists _, _; (split; [reflexivity|]); cbn [l_X l_F l_B l_E].
    all: split; [intros X0 E; injection E as <-; exact SH|]; split; [intros F E; injection E as <-; apply rows_map; exact SH|]; split; [discriminate|]; split; [split; [reflexivity|discriminate]|]; split; [split; [reflexivity|discriminate]|]; split; [split; [intros Q; contradiction|intros [Q _]; discriminate]|discriminate].
  - unfold energy. destruct (m_energy c) eqn:EN; [destruct (col0_some bins F C1 SH) as (e & CE & _); rewrite CE|]; cbn [bind]; eexists _, _; (split; [reflexivity|]); cbn [l_X l_F l_B l_E].
    all: split; [discriminate|]; split; [intros F0 E; injection E as <-; exact SH|]; split; [discriminate|]; split; [split; [intros Q; contradiction|discriminate]|]; split; [split; [reflexivity|discriminate]|]; split; [split; [intros Q; contradiction|intros [Q _]; discriminate]|discriminate].
  - unfold energy. destruct (m_energy c) eqn:EN; [destruct (col0_some bins F C1 SH) as (e & CE & _); rewrite CE|]; cbn [bind]; eexists _, _; (split; [reflexivity|]); cbn [l_X l_F l_B l_E].
    all: split; [discriminate|]; split; [intros F0 E; injection E as <-; apply rows_map; exact SH|]; split; [discriminate|]; split; [split; [intros Q; contradiction|discriminate]|]; split; [split; [reflexivity|discriminate]|]; split; [split; [intros Q; contradiction|intros [Q _]; discriminate]|discriminate].
  - unfold energy. destruct (m_energy c) eqn:EN; [destruct (col0_some _ F (Nat.lt_0_succ _) SH) as (e & CE & _); rewrite CE|]; cbn [bind]; eexists _, _; (split; [reflexivity|]); cbn [l_X l_F l_B l_E].
    all: split; [discriminate|]; split; [discriminate|]; split; [|split; [split; [intros Q; contradiction|discriminate]|split; [split; [intros Q; contradiction|discriminate]|split; [|discriminate]]]].
    + intros B E. injection E as <-. intros r Q. apply in_map_iff in Q. destruct Q as (q & <- & Q). apply SH in Q. destruct q as [|v q]; [discriminate|]. simpl in *. lia.
    + split; [intros _; split; reflexivity|discriminate]. + discriminate. + split; [intros Q; contradiction|intros [_ Q]; discriminate].
  - eexists _, _. split; [reflexivity|]. cbn [l_X l_F l_B l_E]. split; [discriminate|]. split; [discriminate|]. split; [discriminate|]. split; [split; [intros Q; contradiction|discriminate]|]. split; [split; [intros Q; contradiction|discriminate]|]. split; [split; [intros Q; contradiction|intros [Q _]; discriminate]|reflexivity].
  - eexists _, _. split; [reflexivity|]. cbn [l_X l_F l_B l_E]. split; [discriminate|]. split; [discriminate|]. split; [discriminate|]. split; [split; [intros Q; contradiction|discriminate]|]. split; [split; [intros Q; contradiction|discriminate]|]. split; [split; [intros Q; contradiction|intros [Q _]; discriminate]|reflexivity].
  - eexists _, _. split; [reflexivity|]. cbn [l_X l_F l_B l_E]. split; [discriminate|]. split; [discriminate|]. split; [discriminate|]. split; [split; [intros Q; contradiction|discriminate]|]. split; [split; [intros Q; contradiction|discriminate]|]. split; [split; [intros Q; contradiction|intros [Q _]; discriminate]|reflexivity].
Qed.
Lemma put_ok {T} c (inj : R -> T) E A n : (0 < n)%nat -> rows_of n A -> (m_energy c = true -> exists e, E = Some e /\ List.length e = List.length A) -> exists D, put c inj E A = Ok D.
Proof.
  intros N H EE. unfold put. destruct (m_energy c); [|eexists; reflexivity]. destruct (EE eq_refl) as (e & -> & L). cbn [bound bind]. destruct (col0_some n A N H) as (a & CA & _). rewrite (set0_col0 A a) by (try exact CA; rewrite map_length, floored_len; exact L). eexists. reflexivity.
Qed.
Theorem C82_steps c a b bins noise fft dct st x : shaped (steps c a b) bins x -> consistent c bins fft dct ->
  if computable (m_energy c) a b then exists o, compute (steps c a b) noise fft dct false false false st x = Ok o
  else compute (steps c a b) noise fft dct false false false st x = Err UnboundLocalError.
Proof.
  intros SH CO. destruct (shaped_input (steps c a b) bins noise fft dct st x SH CO) as (v & st' & I & RX & RF & RB & BX & BF & BB & BE). destruct CO as (C1 & C2 & C3 & C4 & C5).
  cbn [m_in m_out m_energy m_fb steps] in *. assert (IE : a <> CEPSTRUM -> _) by (intros NC; exact (input_energy _ _ _ _ _ _ _ I NC)). cbn [m_in m_energy steps] in IE. unfold compute. change (flags_ok _ false false false) with true. cbn [negb]. rewrite I. cbn [bind].
  (* the squared magnitudes *)
  set (F := squared (steps c a b) (l_F v)). assert (FS : (forall G, F = Some G -> rows_of bins G /\ exists G0, l_F v = Some G0 /\ List.length G = List.length G0) /\ (F = None <-> l_F v = None)).
  { unfold F, squared. destruct (_ && _ && _); destruct (l_F v) as [G0|] eqn:LF; cbn [option_map]; split; try (split; congruence); try (intros G E; discriminate).
    - intros G E. injection E as <-. split; [apply rows_map, RF; reflexivity|]. exists G0. split; [reflexivity|apply map_length].
    - intros G E. injection E as <-. split; [apply RF; reflexivity|]. exists G0. split; reflexivity. }
  destruct FS as [FS FN]. clearbody F.
  (* the log filter bank *)
  assert (LB : exists B, log_bank (steps c a b) F (l_B v) = Ok B /\ (forall G, B = Some G -> rows_of (List.length (m_fb c)) G) /\ (le a LOG_SPEC = true -> le LOGFB b = true -> exists G, B = Some G /\ forall H, F = Some H -> List.length G = List.length H) /\ (le a LOG_SPEC = false \/ le LOGFB b = false -> B = l_B v)).
  { unfold log_bank. cbn [m_in m_out m_fb steps]. destruct (le a LOG_SPEC) eqn:LA; destruct (le LOGFB b) eqn:LBB; cbn [andb].
    - destruct F as [G|]; [|exfalso; apply (proj2 BF eq_refl); apply FN; reflexivity]. cbn [bound bind]. rewrite (bank_ok bins) by (try exact C2; apply FS; reflexivity). cbn [bind]. eexists. split; [reflexivity|]. split; [|split].
      + intros H E. injection E as <-. apply rows_map. intros r Q. apply in_map_iff in Q. destruct Q as (q & <- & _). apply map_length.
      + intros _ _. eexists. split; [reflexivity|]. intros H E. injection E as <-. rewrite !map_length. reflexivity.
      + intros [Q|Q]; discriminate.
    - exists (l_B v). split; [reflexivity|]. split; [exact RB|]. split; [discriminate|reflexivity].
    - exists (l_B v). split; [reflexivity|]. split; [exact RB|]. split; [discriminate|reflexivity].
    - exists (l_B v). split; [reflexivity|]. split; [exact RB|]. split; [discriminate|reflexivity]. }
  destruct LB as (B & -> & B1 & B2 & B3). cbn [bind].
  (* the cepstra *)
  assert (CP : le a LOGFB = true -> b = CEPSTRUM -> B = None -> cepstra (steps c a b) dct B = Err UnboundLocalError) by (intros Q1 Q2 Q3; unfold cepstra; cbn [m_in m_out steps]; rewrite Q1, Q2, Q3; reflexivity).
  assert (CO : (forall G, B = Some G -> le a LOGFB = true -> b = CEPSTRUM -> exists P, cepstra (steps c a b) dct B = Ok (Some P) /\ rows_of (m_nceps c) P /\ List.length P = List.length G) /\ (le a LOGFB = false \/ b <> CEPSTRUM -> cepstra (steps c a b) dct B = Ok None)).
  { split.
    - intros G E Q1 Q2. subst b. unfold cepstra. cbn [m_in m_out m_nceps m_lift steps]. rewrite Q1, E. cbn [andb eqs value Nat.eqb bound bind].
      assert (RP : rows_of (m_nceps c) (map (fun r => firstn (m_nceps c) (dct r)) G)) by (intros r Q; apply in_map_iff in Q; destruct Q as (q & <- & Q); rewrite firstn_length, C4, (B1 G E q Q); lia).
      destruct (Rlt_dec 0 (m_lift c)).
      + set (z := fun r => zip_with Rmult r (lifter (m_nceps c) (m_lift c))). rewrite (mapM_pure _ z). 2: { intros rr Q. rewrite (RP rr Q), Nat.eqb_refl. reflexivity. } cbn [bind]. eexists. split; [reflexivity|]. split; [|rewrite !map_length; reflexivity].
        intros rr Q. apply in_map_iff in Q. destruct Q as (q & <- & Q). unfold z. rewrite zip_len; [apply RP; exact Q|]. rewrite (RP q Q). unfold lifter. rewrite map_length, seq_length. reflexivity.
      + eexists. split; [reflexivity|]. split; [exact RP|apply map_length].
    - intros Q. unfold cepstra. cbn [m_in m_out steps]. destruct Q as [->|Q]; [reflexivity|]. destruct b; try (rewrite andb_false_r; reflexivity). congruence. }
  destruct CO as [CO1 CO2].
  assert (EN : forall n, m_energy c = true -> a <> CEPSTRUM -> (forall G, F = Some G -> n = List.length G) -> (l_F v = None -> forall G, l_B v = Some G -> n = List.length G) -> (l_F v = None -> l_B v = None -> False) -> exists e, l_E v = Some e /\ List.length e = n).
  { intros n E NC Q1 Q2 Q3. destruct (IE NC) as (J & _). rewrite E in J. destruct J as (e & J1 & J2 & J3 & J4). exists e. split; [exact J1|]. destruct F as [G|].
    - destruct (FS G eq_refl) as (_ & G0 & G1 & G2). rewrite (Q1 G eq_refl), G2. apply J2. exact G1.
    - assert (l_F v = None) as FF by (apply FN; reflexivity). destruct (l_B v) as [G|] eqn:LBV; [|exfalso; apply Q3; [exact FF|reflexivity]]. rewrite (Q2 FF G eq_refl). apply J4. reflexivity. }
  destruct (computable (m_energy c) a b) eqn:CM.
  - assert (NC : a <> CEPSTRUM) by (intros ->; destruct b; discriminate). destruct b; cbn [m_out steps].
    + destruct a; discriminate.
    + rewrite CO2 by (right; discriminate). cbn [bind]. assert (LA : le a FFT = true) by (destruct a; try reflexivity; discriminate). destruct (l_X v) as [X|] eqn:LX; [|exfalso; apply (proj2 BX LA); reflexivity]. cbn [bound bind].
      destruct (put_ok (T := C) (steps c a FFT) (fun a => (a, 0)) (l_E v) X bins C1 (RX X eq_refl)) as (D & ->). { cbn [m_energy steps]. intros E. destruct (IE NC) as (J & _). rewrite E in J. destruct J as (e & J1 & J2 & J3 & J4). exists e. split; [exact J1|apply J3; reflexivity]. }
      cbn [bind option_map]. eexists. reflexivity.
    + rewrite CO2 by (right; discriminate). cbn [bind]. assert (LA : le a LOG_SPEC = true) by (destruct a; try reflexivity; discriminate). destruct F as [G|]; [|exfalso; apply (proj2 BF LA); apply FN; reflexivity]. cbn [bound bind].
      destruct (put_ok (steps c a FFT_MAG) (fun a => a) (l_E v) G bins C1 (proj1 (FS G eq_refl))) as (D & ->). { cbn [m_energy steps]. intros E. apply EN; try assumption. - intros H Q. injection Q as <-. reflexivity. - intros Q. apply FN in Q. discriminate. - intros Q. apply FN in Q. discriminate. }
      cbn [bind]. eexists. reflexivity.
    + rewrite CO2 by (right; discriminate). cbn [bind]. assert (LA : le a LOG_SPEC = true) by (destruct a; try reflexivity; discriminate). destruct F as [G|]; [|exfalso; apply (proj2 BF LA); apply FN; reflexivity]. cbn [bound bind].
      destruct (put_ok (steps c a LOG_SPEC) (fun a => a) (l_E v) (map (map (fun a => ln (a + / 10 ^ 10))) G) bins C1 (rows_map _ _ _ (proj1 (FS G eq_refl)))) as (D & ->). { cbn [m_energy steps]. intros E. apply EN; try assumption. - intros H Q. injection Q as <-. apply map_length. - intros Q. apply FN in Q. discriminate. - intros Q. apply FN in Q. discriminate. }
      cbn [bind]. eexists. reflexivity.
    + rewrite CO2 by (right; discriminate). cbn [bind]. assert (XB : exists G, B = Some G /\ (m_energy c = true -> exists e, l_E v = Some e)).
      { destruct (le a LOG_SPEC) eqn:LA.
        - destruct (B2 eq_refl eq_refl) as (G & G1 & _). exists G. split; [exact G1|]. intros E. destruct (IE NC) as (J & _). rewrite E in J. destruct J as (e & J1 & _). exists e. exact J1.
        - assert (a = LOGFB) as -> by (destruct a; try discriminate; congruence). simpl in CM. rewrite (B3 (or_introl eq_refl)). destruct (l_B v) as [G|] eqn:LV; [|exfalso; apply (proj2 BB (conj eq_refl CM)); reflexivity]. exists G. split; [reflexivity|]. intros E. destruct (IE NC) as (J & _). rewrite E in J. destruct J as (e & J1 & _). exists e. exact J1. }
      destruct XB as (G & -> & XE). cbn [bound bind m_energy steps]. destruct (m_energy c); [destruct (XE eq_refl) as [e ->]|]; cbn [bound bind]; eexists; reflexivity.
    + assert (XB : exists G, B = Some G /\ (m_energy c = true -> exists e, l_E v = Some e /\ List.length e = List.length G)).
      { destruct (le a LOG_SPEC) eqn:LA.
        - destruct (B2 eq_refl eq_refl) as (G & G1 & G2). exists G. split; [exact G1|]. intros E. apply EN; try assumption. + intros Q. exfalso. apply (proj2 BF eq_refl). exact Q. + intros Q. exfalso. apply (proj2 BF eq_refl). exact Q.
        - assert (a = LOGFB) as -> by (destruct a; try discriminate; congruence). simpl in CM. rewrite (B3 (or_introl eq_refl)). destruct (l_B v) as [G|] eqn:LV; [|exfalso; apply (proj2 BB (conj eq_refl CM)); reflexivity]. exists G. split; [reflexivity|]. intros E. apply EN; try assumption.
          + intros H Q. exfalso. destruct (FS H Q) as (_ & G0 & G1 & _). assert (l_F v <> None) as K by congruence. apply BF in K. discriminate. + intros _ H Q. injection Q as <-. reflexivity. + discriminate. }
      destruct XB as (G & -> & XE). assert (LL : le a LOGFB = true) by (destruct a; try reflexivity; congruence). destruct (CO1 G eq_refl LL eq_refl) as (P & -> & P1 & P2). cbn [bound bind].
      destruct (put_ok (steps c a CEPSTRUM) (fun a => a) (l_E v) P (m_nceps c) ltac:(lia) P1) as (D & ->). { cbn [m_energy steps]. intros E. destruct (XE E) as (e & E1 & E2). exists e. split; [exact E1|lia]. } cbn [bind]. eexists. reflexivity.
  - destruct b; cbn [m_out steps].
    + rewrite CO2 by (right; discriminate). reflexivity.
    + rewrite CO2 by (right; discriminate). cbn [bind]. destruct (l_X v) as [X|] eqn:LX; [|reflexivity]. assert (Q : le a FFT = true) by (apply BX; discriminate). destruct a; discriminate.
    + rewrite CO2 by (right; discriminate). cbn [bind]. destruct F as [G|]; [|reflexivity]. assert (Q : le a LOG_SPEC = true) by (apply BF; intros K; apply FN in K; discriminate). destruct a; discriminate.
    + rewrite CO2 by (right; discriminate). cbn [bind]. destruct F as [G|]; [|reflexivity]. assert (Q : le a LOG_SPEC = true) by (apply BF; intros K; apply FN in K; discriminate). destruct a; discriminate.
    + rewrite CO2 by (right; discriminate). cbn [bind]. assert (LA : le a LOG_SPEC = false) by (destruct a; try reflexivity; discriminate). rewrite (B3 (or_introl LA)). destruct (l_B v) as [G|] eqn:LV; [|reflexivity]. destruct (proj1 BB ltac:(discriminate)) as [-> Q]. simpl in CM. congruence.
    + assert (LA : le a LOG_SPEC = false) by (destruct a; try reflexivity; discriminate). pose proof (B3 (or_introl LA)) as B4. destruct (l_B v) as [G|] eqn:LV. { destruct (proj1 BB ltac:(discriminate)) as [-> Q]. simpl in CM. congruence. }
      destruct (le a LOGFB) eqn:LL; [rewrite CP by (try reflexivity; exact B4); reflexivity|]. rewrite CO2 by (left; reflexivity). reflexivity.
Qed.
(** ** The whole pipeline, frame by frame *)
Section Frames.
  Variables (c : mfcc) (fft : nat -> list R -> list C) (dct : list R -> list R) (st : R * R) (x : list R).
  Definition after_dc : list R := if m_dc c then fst (dc_filter (fst st) x) else x.
  Definition after_pre : list R := if Rlt_dec 0 (m_pre c) then fst (preemph (m_pre c) (snd st) after_dc) else after_dc.
  Definition spec_at (i : nat) : list C := fft (m_nfft c) (map (fun t => nth (i * m_s c + t) after_pre 0 * nth t (m_win c) 0) (seq 0 (m_L c))).
  Definition mag_at (i : nat) : list R := map (fun z => if m_fft2 c then cabs z ^ 2 else cabs z) (spec_at i).
  Definition bands_at (i : nat) : list R := map (fun w => ln (Rsum (map (fun p => fst p * snd p) (combine (mag_at i) w)) + / 10 ^ 10)) (m_fb c).
  Definition ceps_at (i : nat) : list R :=
    let p := firstn (m_nceps c) (dct (bands_at i)) in
    if Rlt_dec 0 (m_lift c) then map (fun n => nth n p 0 * (1 + m_lift c / 2 * sin (PI * INR n / m_lift c))) (seq 0 (m_nceps c)) else p.
  Definition energy_at (i : nat) : R :=
    if m_raw c then ln (Rsum (map (fun t => Rsqr (nth (i * m_s c + t) after_dc 0)) (seq 0 (m_L c))) + / 10 ^ 15)
    else ln (Rsum (map (fun z => cabs z ^ 2) (spec_at i)) / INR (List.length (spec_at i)) + / 10 ^ 10).
  Definition row_at (i : nat) : list R := if m_energy c then Rmax (energy_at i) (ln (m_floor c + / 10 ^ 15)) :: tl (ceps_at i) else ceps_at i.
End Frames.
Lemma zip_combine {A B D} (f : A -> B -> D) a : forall b, zip_with f a b = map (fun p => f (fst p) (snd p)) (combine a b).
Proof. induction a as [|u a IH]; intros [|v b]; try reflexivity. simpl. f_equal. apply IH. Qed.
Lemma set0_rows {A T} (l : list A) (f : A -> list T) (e : A -> T) : (forall i, In i l -> f i <> []) -> set0 (map f l) (map e l) = Ok (map (fun i => e i :: tl (f i)) l).
Proof.
  unfold set0. induction l as [|i l IH]; intros H; [reflexivity|]. cbn [map combine mapM fst snd]. rewrite IH by (intros; apply H; right; assumption). pose proof (H i (or_introl eq_refl)) as Q. destruct (f i) as [|v r]; [contradiction|]. reflexivity.
Qed.
Theorem C82_rows c bins noise fft dct st x : shaped (steps c WAVE CEPSTRUM) bins (Wave x) -> consistent c bins fft dct ->
  exists o nf, compute (steps c WAVE CEPSTRUM) noise fft dct false false false st (Wave x) = Ok o /\ o_R o = Rows (map (row_at c fft dct st x) (seq 0 nf)) /\
  (forall i, (i < nf)%nat <-> (i * m_s c + m_L c <= List.length x)%nat) /\ (forall i, List.length (row_at c fft dct st x i) = m_nceps c).
Proof.
  intros SH (C1 & C2 & C3 & C4 & C5). unfold shaped in SH. cbn [m_in m_snip m_s m_L m_win m_dither steps] in SH. destruct SH as (S1 & S2 & S3 & S4 & S5).
  assert (PR : prepare (m_snip c) (m_L c) (m_s c) (m_dither c) noise x = Ok x). { unfold prepare. rewrite S1. destruct (Nat.eqb_spec (m_s c) 0); [lia|]. cbn [bind]. destruct (Rlt_dec 0 (m_dither c)); [contradiction|reflexivity]. }
  assert (LD : List.length (after_dc c st x) = List.length x) by (unfold after_dc; destruct (m_dc c); [apply dc_len|reflexivity]).
  assert (LP : List.length (after_pre c st x) = List.length x) by (unfold after_pre; destruct (Rlt_dec 0 (m_pre c)); [rewrite pre_len; exact LD|exact LD]).
  destruct (C79_log_energy (after_dc c st x) (m_L c) (m_s c) S2 ltac:(lia)) as (nf1 & LE1 & N1). destruct (C79_stft fft (after_pre c st x) (m_L c) (m_s c) (m_nfft c) (Some (m_win c)) S2 ltac:(lia) S4) as (nf & ST & N2).
  assert (nf1 = nf). { destruct (Nat.lt_trichotomy nf1 nf) as [Q|[Q|Q]]; [|exact Q|].
    - pose proof (proj1 (N2 nf1) Q) as K. rewrite LP in K. pose proof (proj2 (N1 nf1)) as K2. rewrite LD in K2. specialize (K2 K). lia.
    - pose proof (proj1 (N1 nf) Q) as K. rewrite LD in K. pose proof (proj2 (N2 nf)) as K2. rewrite LP in K2. specialize (K2 K). lia. } subst nf1.
  rewrite LP in N2. assert (SPC : map (fun i => fft (m_nfft c) (frame_win (after_pre c st x) (m_L c) (m_s c) (Some (m_win c)) i)) (seq 0 nf) = map (spec_at c fft st x) (seq 0 nf)) by reflexivity. rewrite SPC in ST. clear SPC.
  set (z1 := if m_dc c then snd (dc_filter (fst st) x) else fst st). set (z2 := if Rlt_dec 0 (m_pre c) then snd (preemph (m_pre c) (snd st) (after_dc c st x)) else snd st).
  assert (FW : from_wave (steps c WAVE CEPSTRUM) noise fft st x = Ok (mk_locals (Some (map (spec_at c fft st x) (seq 0 nf))) (Some (map (fun i => map cabs (spec_at c fft st x i)) (seq 0 nf))) (if m_energy c then Some (map (energy_at c fft st x) (seq 0 nf)) else None) None, (z1, z2))).
  { unfold from_wave. cbn [m_snip m_L m_s m_dither m_dc m_energy m_raw m_pre m_nfft m_win steps]. rewrite PR. cbn [bind].
    assert (DD : (if m_dc c then dc_filter (fst st) x else (x, fst st)) = (after_dc c st x, z1)) by (unfold after_dc, z1; destruct (m_dc c); [destruct (dc_filter (fst st) x)|]; reflexivity). rewrite DD.
    assert (PP : (if Rlt_dec 0 (m_pre c) then preemph (m_pre c) (snd st) (after_dc c st x) else (after_dc c st x, snd st)) = (after_pre c st x, z2)) by (unfold after_pre, z2; destruct (Rlt_dec 0 (m_pre c)); [destruct (preemph (m_pre c) (snd st) (after_dc c st x))|]; reflexivity). rewrite PP.
    rewrite ST, LE1. unfold energy_at. destruct (m_energy c); destruct (m_raw c); cbn [andb negb bind]; rewrite !map_map; try reflexivity. do 4 f_equal. apply map_ext. intros i. rewrite map_map, map_length. reflexivity. }
  set (l := seq 0 nf) in *.
  assert (NE : forall i, List.length (ceps_at c fft dct st x i) = m_nceps c).
  { intros i. unfold ceps_at. destruct (Rlt_dec 0 (m_lift c)); [rewrite map_length; apply seq_length|]. rewrite firstn_length, C4. unfold bands_at. rewrite map_length. lia. }
  assert (RL : forall i, List.length (row_at c fft dct st x i) = m_nceps c).
  { intros i. unfold row_at. specialize (NE i). destruct (m_energy c); [|exact NE]. destruct (ceps_at c fft dct st x i); simpl in *; lia. }
  assert (SM : squared (steps c WAVE CEPSTRUM) (Some (map (fun i => map cabs (spec_at c fft st x i)) l)) = Some (map (mag_at c fft st x) l)).
  { unfold squared, mag_at. cbn [m_in m_out m_fft2 steps le value Nat.leb andb]. destruct (m_fft2 c); [|reflexivity]. cbn [option_map]. rewrite map_map. f_equal. apply map_ext. intros i. rewrite map_map. reflexivity. }
  assert (LB : log_bank (steps c WAVE CEPSTRUM) (Some (map (mag_at c fft st x) l)) None = Ok (Some (map (bands_at c fft st x) l))).
  { unfold log_bank. cbn [m_in m_out m_fb steps le value Nat.leb andb bound bind]. rewrite (bank_ok bins). 2: exact C2. 2: { intros r Q. apply in_map_iff in Q. destruct Q as (i & <- & _). unfold mag_at. rewrite map_length. apply C3. }
    cbn [bind]. rewrite !map_map. do 2 f_equal. apply map_ext. intros i. rewrite map_map. unfold bands_at. apply map_ext. intros w. unfold dot. rewrite zip_combine. reflexivity. }
  assert (CE : cepstra (steps c WAVE CEPSTRUM) dct (Some (map (bands_at c fft st x) l)) = Ok (Some (map (ceps_at c fft dct st x) l))).
  { unfold cepstra. cbn [m_in m_out m_nceps m_lift steps le value Nat.leb eqs Nat.eqb andb bound bind]. unfold ceps_at. rewrite map_map. destruct (Rlt_dec 0 (m_lift c)) as [LI|LI]; [|reflexivity].
    rewrite (mapM_pure _ (fun q => map (fun n => nth n q 0 * (1 + m_lift c / 2 * sin (PI * INR n / m_lift c))) (seq 0 (m_nceps c)))); [cbn [bind]; rewrite map_map; reflexivity|].
    intros r Q. apply in_map_iff in Q. destruct Q as (i & <- & _). assert (LR : List.length (firstn (m_nceps c) (dct (bands_at c fft st x i))) = m_nceps c) by (rewrite firstn_length, C4; unfold bands_at; rewrite map_length; lia).
    rewrite LR, Nat.eqb_refl. f_equal. assert (LL : List.length (lifter (m_nceps c) (m_lift c)) = m_nceps c) by (unfold lifter; rewrite map_length; apply seq_length).
    apply (list_by_nth _ _ _ 0); [rewrite zip_len; lia|]. intros n Q. rewrite zip_nth by lia. f_equal. unfold lifter. erewrite nth_indep by (rewrite map_length, seq_length; exact Q). rewrite (map_nth (fun n => 1 + 5 / 10 * m_lift c * sin (PI * INR n / m_lift c)) _ 0%nat), seq_nth by exact Q. simpl (0 + n)%nat. field. }
  unfold compute. change (flags_ok _ false false false) with true. cbn [negb input m_in steps]. change (input (steps c WAVE CEPSTRUM) noise fft st (Wave x)) with (from_wave (steps c WAVE CEPSTRUM) noise fft st x). rewrite FW. cbn [bind l_F l_B l_E l_X]. rewrite SM, LB. cbn [bind]. rewrite CE. cbn [bind m_out steps bound]. unfold put. cbn [m_energy steps].
  exists (mk_outcome (Rows (map (row_at c fft dct st x) l)) None None None (Wave x) (z1, z2)), nf. split; [|split; [reflexivity|split; [exact N2|exact RL]]].
  unfold row_at. destruct (m_energy c); [|reflexivity]. cbn [bound bind]. unfold floored. cbn [m_floor steps]. rewrite map_id_id, map_map. rewrite set0_rows; [reflexivity|].
  intros i _ Q. specialize (NE i). rewrite Q in NE. simpl in NE. lia.
Qed.
(** ** The array of the caller, the arrays of the flags, the states *)
(** the array of the caller is left alone unless input and output step are both FFT or both FFT_MAG *)
Theorem C82_caller c a b noise fft dct rf rm rb st x o : ~ (a = FFT /\ b = FFT) -> ~ (a = FFT_MAG /\ b = FFT_MAG) -> compute (steps c a b) noise fft dct rf rm rb st x = Ok o -> o_x o = x.
Proof.
  intros N1 N2 H. unfold compute in H. destruct (flags_ok _ _ _ _); [|discriminate]. cbn [negb] in H. destruct (input _ _ _ _ _) as [[v st']|]; [|discriminate]. cbn [bind] in H. destruct (log_bank _ _ _) as [B|]; [|discriminate]. cbn [bind] in H. destruct (cepstra _ _ _) as [P|]; [|discriminate]. cbn [bind] in H.
  assert (G : forall RR X F, (r <- (if rf then d <- bound (option_map Spec X) ;; Ok (Some d) else Ok None) ;; m <- (if rm then d <- bound (option_map Rows F) ;; Ok (Some d) else Ok None) ;; b <- (if rb then d <- bound (option_map Rows B) ;; Ok (Some d) else Ok None) ;; Ok (mk_outcome RR r m b x st')) = Ok o -> o_x o = x).
  { intros RR X F Q. destruct rf, rm, rb; cbn [bind] in Q; try (destruct X; cbn [option_map bound bind] in Q; [|discriminate]); try (destruct F; cbn [option_map bound bind] in Q; [|discriminate]); try (destruct B; cbn [option_map bound bind] in Q; [|discriminate]); injection Q as <-; reflexivity. }
  destruct b; cbn [m_out m_in steps] in H.
  - destruct (bound P) as [A|]; [|discriminate]. cbn [bind] in H. destruct (put _ _ _ _) as [D|]; [|discriminate]. cbn [bind] in H. exact (G _ _ _ H).
  - destruct (bound (l_X v)) as [A|]; [|discriminate]. cbn [bind] in H. destruct (put _ _ _ _) as [D|]; [|discriminate]. cbn [bind] in H. assert (eqs a FFT = false) as EQ by (destruct a; try reflexivity; exfalso; apply N1; split; reflexivity). rewrite EQ in H. exact (G _ _ _ H).
  - destruct (bound (squared _ _)) as [A|]; [|discriminate]. cbn [bind] in H. destruct (put _ _ _ _) as [D|]; [|discriminate]. cbn [bind] in H. assert (eqs a FFT_MAG = false) as EQ by (destruct a; try reflexivity; exfalso; apply N2; split; reflexivity). rewrite EQ in H. exact (G _ _ _ H).
  - destruct (bound (squared _ _)) as [A|]; [|discriminate]. cbn [bind] in H. destruct (put _ _ _ _) as [D|]; [|discriminate]. cbn [bind] in H. exact (G _ _ _ H).
  - destruct (bound B) as [A|]; [|discriminate]. cbn [bind] in H. destruct (if m_energy _ then _ else _) as [D|]; [|discriminate]. cbn [bind] in H. exact (G _ _ _ H).
  - destruct (bound P) as [A|]; [|discriminate]. cbn [bind] in H. destruct (put _ _ _ _) as [D|]; [|discriminate]. cbn [bind] in H. exact (G _ _ _ H).
Qed.
Theorem C82_caller_refuted : exists c X o, m_energy c = true /\ forall noise fft dct st, compute (steps c FFT FFT) noise fft dct true false false st (Spec X) = Ok (o st) /\ o_x (o st) = o_R (o st) /\ o_x (o st) <> Spec X /\ o_fft (o st) = Some (o_R (o st)).
Proof.
  exists (mk_mfcc FFT FFT 1 1 1 true 0 false 0 [1] true true true 1 [] 1 0), [[(- 5, 0)]], (fun st => mk_outcome (Spec [[(Rmax (cabs (- 5, 0)) (ln (1 + / 10 ^ 15)), 0)]]) (Some (Spec [[(Rmax (cabs (- 5, 0)) (ln (1 + / 10 ^ 15)), 0)]])) None None (Spec [[(Rmax (cabs (- 5, 0)) (ln (1 + / 10 ^ 15)), 0)]]) st).
  split; [reflexivity|]. intros noise fft dct st. split; [reflexivity|]. cbn [o_x o_R o_fft]. split; [reflexivity|]. split; [|reflexivity]. intros Q. injection Q as Q. rewrite cabs_real in Q. rewrite Rabs_left in Q by lra. pose proof (Rmax_l (- -5) (ln (1 + / 10 ^ 15))) as K. simpl in K, Q. lra.
Qed.
(** the waveform filters keep their state between calls: without reset() the second result for the same waveform is another one *)
Theorem C82_history_refuted : exists c x, forall noise fft dct, (forall n y, fft n y = [(Rsum y, 0)]) -> exists o o',
  compute (steps c WAVE FFT) noise fft dct false false false reset (Wave x) = Ok o /\ compute (steps c WAVE FFT) noise fft dct false false false (o_state o) (Wave x) = Ok o' /\ o_R o <> o_R o'.
Proof.
  exists (mk_mfcc WAVE FFT 1 1 1 true 0 true 0 [1] true false true 0 [] 1 0), [1]. intros noise fft dct HF. set (c := mk_mfcc _ _ _ _ _ _ _ _ _ _ _ _ _ _ _ _ _).
  assert (PR : prepare true 1 1 0 noise [1] = Ok [1]) by (unfold prepare; simpl; destruct (Rlt_dec 0 0); [lra|reflexivity]).
  assert (NF : forall y : list R, List.length y = 1%nat -> num_frames (List.length y) 1 1 = Ok 1%nat) by (intros y ->; reflexivity).
  assert (K : forall st, compute (steps c WAVE FFT) noise fft dct false false false st (Wave [1]) = Ok (mk_outcome (Spec [[(1 + fst st, 0)]]) None None None (Wave [1]) (- 1 - - (999 / 1000) * (1 + fst st), snd st))).
  { intros st. unfold compute. change (flags_ok _ _ _ _) with true. cbn [negb]. change (input (steps c WAVE FFT) noise fft st (Wave [1])) with (from_wave (steps c WAVE FFT) noise fft st [1]). unfold from_wave. cbn [m_snip m_L m_s m_dither steps c m_dc m_energy m_raw m_pre m_nfft m_win andb negb]. rewrite PR. cbn [bind].
    unfold dc_filter. cbn [lfilter]. destruct (Rlt_dec 0 0); [lra|]. unfold stft. rewrite NF by reflexivity. cbn [bind seq map mapM frame Nat.mul firstn skipn windowed List.length Nat.eqb Mat.zip_with]. rewrite HF. unfold Rsum. cbn [fold_right map bind l_F l_B l_E l_X]. replace ((1 * 1 + fst st) * 1 + 0) with (1 + fst st) by ring. replace (1 * 1 + fst st) with (1 + fst st) by ring. replace (- 1 * 1) with (- 1) by ring. reflexivity. }
  eexists _, _. split; [apply K|]. split; [apply K|]. cbn [o_R o_state fst snd reset]. intros Q. injection Q as Q. lra.
Qed.
(** ** The arrays that the flags return *)
Definition no_energy (c : mfcc) : mfcc :=
  mk_mfcc (m_in c) (m_out c) (m_L c) (m_s c) (m_nfft c) (m_snip c) (m_dither c) (m_dc c) (m_pre c) (m_win c) (m_fft2 c) false (m_raw c) (m_floor c) (m_fb c) (m_nceps c) (m_lift c).
Lemma input_no_energy c a b b' noise fft st x v st' : input (steps c a b) noise fft st x = Ok (v, st') ->
  exists v', input (steps (no_energy c) a b') noise fft st x = Ok (v', st') /\ l_X v' = l_X v /\ l_F v' = l_F v.
Proof.
  intros H. unfold input in H |- *. cbn [m_in steps] in H |- *. destruct a; destruct x as [x|X|F]; try discriminate.
  - unfold from_wave in H |- *. cbn [m_snip m_L m_s m_dither m_dc m_energy m_raw m_pre m_nfft m_win steps no_energy andb negb] in H |- *. destruct (prepare _ _ _ _ _ _) as [y|]; [|discriminate]. cbn [bind] in H |- *.
    destruct (if m_dc c then dc_filter (fst st) y else (y, fst st)) as [y1 z1]. destruct (if Rlt_dec 0 (m_pre c) then preemph (m_pre c) (snd st) y1 else (y1, snd st)) as [y2 z2].
    destruct (if m_energy c && m_raw c then _ else _) as [e|] in H; [|discriminate]. cbn [bind] in H. destruct (stft _ _ _ _ _ _) as [X|]; [|discriminate]. cbn [bind] in H |- *. injection H as <- <-. eexists. split; [reflexivity|]. split; reflexivity.
  - unfold energy in *. cbn [m_energy steps no_energy] in *. destruct (if m_energy c then _ else _) as [e|] in H; [|discriminate]. cbn [bind] in *. injection H as <- <-. eexists. split; [reflexivity|]. split; reflexivity.
  - unfold energy in *. cbn [m_energy steps no_energy] in *. destruct (if m_energy c then _ else _) as [e|] in H; [|discriminate]. cbn [bind] in *. injection H as <- <-. eexists. split; [reflexivity|]. split; reflexivity.
  - unfold energy in *. cbn [m_energy steps no_energy] in *. destruct (if m_energy c then _ else _) as [e|] in H; [|discriminate]. cbn [bind] in *. injection H as <- <-. eexists. split; [reflexivity|]. split; reflexivity.
  - unfold energy in *. cbn [m_energy steps no_energy] in *. destruct (if m_energy c then _ else _) as [e|] in H; [|discriminate]. cbn [bind] in *. injection H as <- <-. eexists. split; [reflexivity|]. split; reflexivity.
  - cbn [bind] in *. injection H as <- <-. eexists. split; [reflexivity|]. split; reflexivity.
  - cbn [bind] in *. injection H as <- <-. eexists. split; [reflexivity|]. split; reflexivity.
  - cbn [bind] in *. injection H as <- <-. eexists. split; [reflexivity|]. split; reflexivity.
Qed.
(** with an output step after the magnitudes the flags return what the object would return without use_energy and with that output step *)
Theorem C82_flags c a b noise fft dct rf rm rb st x o : le LOG_SPEC b = true -> compute (steps c a b) noise fft dct rf rm rb st x = Ok o ->
  (rf = true -> exists d, o_fft o = Some d /\ result (compute (steps (no_energy c) a FFT) noise fft dct false false false st x) = Ok d) /\
  (rm = true -> exists d, o_mag o = Some d /\ result (compute (steps (no_energy c) a FFT_MAG) noise fft dct false false false st x) = Ok d) /\
  (rb = true -> le a LOG_SPEC = true -> exists d, o_logfb o = Some d /\ result (compute (steps (no_energy c) a LOGFB) noise fft dct false false false st x) = Ok d).
Proof.
  intros LBB H. unfold compute in H. destruct (flags_ok _ _ _ _) eqn:FO; [|discriminate]. cbn [negb] in H. destruct (input _ _ _ _ _) as [[v st']|] eqn:I; [|discriminate]. cbn [bind] in H. destruct (log_bank _ _ _) as [B|] eqn:LB; [|discriminate]. cbn [bind] in H. destruct (cepstra _ _ _) as [P|]; [|discriminate]. cbn [bind] in H.
  set (F := squared (steps c a b) (l_F v)) in *.
  assert (G : forall RR, (r <- (if rf then d <- bound (option_map Spec (l_X v)) ;; Ok (Some d) else Ok None) ;; m <- (if rm then d <- bound (option_map Rows F) ;; Ok (Some d) else Ok None) ;; b <- (if rb then d <- bound (option_map Rows B) ;; Ok (Some d) else Ok None) ;; Ok (mk_outcome RR r m b x st')) = Ok o ->
    (rf = true -> exists X, l_X v = Some X /\ o_fft o = Some (Spec X)) /\ (rm = true -> exists X, F = Some X /\ o_mag o = Some (Rows X)) /\ (rb = true -> exists X, B = Some X /\ o_logfb o = Some (Rows X))).
  { intros RR Q. destruct rf.
    - destruct (l_X v) as [X|]; [|discriminate]. cbn [option_map bound bind] in Q. destruct rm.
      + destruct F as [F0|]; [|discriminate]. cbn [option_map bound bind] in Q. destruct rb; [destruct B as [B0|]; [|discriminate]|]; cbn [option_map bound bind] in Q; injection Q as <-; cbn [o_fft o_mag o_logfb]; repeat split; intros Q; try discriminate; eexists; split; reflexivity.
      + cbn [bind] in Q. destruct rb; [destruct B as [B0|]; [|discriminate]|]; cbn [option_map bound bind] in Q; injection Q as <-; cbn [o_fft o_mag o_logfb]; repeat split; intros Q; try discriminate; eexists; split; reflexivity.
    - cbn [bind] in Q. destruct rm.
      + destruct F as [F0|]; [|discriminate]. cbn [option_map bound bind] in Q. destruct rb; [destruct B as [B0|]; [|discriminate]|]; cbn [option_map bound bind] in Q; injection Q as <-; cbn [o_fft o_mag o_logfb]; repeat split; intros Q; try discriminate; eexists; split; reflexivity.
      + cbn [bind] in Q. destruct rb; [destruct B as [B0|]; [|discriminate]|]; cbn [option_map bound bind] in Q; injection Q as <-; cbn [o_fft o_mag o_logfb]; repeat split; intros Q; try discriminate; eexists; split; reflexivity. }
  assert (GG : (rf = true -> exists X, l_X v = Some X /\ o_fft o = Some (Spec X)) /\ (rm = true -> exists X, F = Some X /\ o_mag o = Some (Rows X)) /\ (rb = true -> exists X, B = Some X /\ o_logfb o = Some (Rows X))).
  { destruct b; try discriminate; cbn [m_out steps] in H.
    - destruct (bound F) as [A|]; [|discriminate]. cbn [bind] in H. destruct (put _ _ _ _) as [D|]; [|discriminate]. cbn [bind] in H. exact (G _ H).
    - destruct (bound B) as [A|]; [|discriminate]. cbn [bind] in H. destruct (if m_energy _ then _ else _) as [D|]; [|discriminate]. cbn [bind] in H. exact (G _ H).
    - destruct (bound P) as [A|]; [|discriminate]. cbn [bind] in H. destruct (put _ _ _ _) as [D|]; [|discriminate]. cbn [bind] in H. exact (G _ H). }
  clear G H. destruct GG as (G1 & G2 & G3). split; [|split].
  - intros Q. destruct (G1 Q) as (X & X1 & X2). exists (Spec X). split; [exact X2|]. destruct (input_no_energy c a b FFT _ _ _ _ _ _ I) as (v' & I' & V1 & V2). unfold compute. change (flags_ok _ false false false) with true. cbn [negb]. rewrite I'. cbn [bind].
    unfold log_bank. cbn [m_in m_out steps le value Nat.leb]. rewrite andb_false_r. cbn [bind]. unfold cepstra. cbn [m_in m_out steps eqs value Nat.eqb]. rewrite andb_false_r. cbn [bind]. rewrite V1, X1. reflexivity.
  - intros Q. destruct (G2 Q) as (X & X1 & X2). exists (Rows X). split; [exact X2|]. destruct (input_no_energy c a b FFT_MAG _ _ _ _ _ _ I) as (v' & I' & V1 & V2). unfold compute. change (flags_ok _ false false false) with true. cbn [negb]. rewrite I'. cbn [bind].
    unfold log_bank. cbn [m_in m_out steps le value Nat.leb]. rewrite andb_false_r. cbn [bind]. unfold cepstra. cbn [m_in m_out steps eqs value Nat.eqb]. rewrite andb_false_r. cbn [bind]. rewrite V2.
    replace (squared (steps (no_energy c) a FFT_MAG) (l_F v)) with F by (unfold F, squared; cbn [m_in m_out m_fft2 steps no_energy]; destruct b; try discriminate; reflexivity). rewrite X1. reflexivity.
  - intros Q LA. destruct (G3 Q) as (X & X1 & X2). exists (Rows X). split; [exact X2|]. destruct (input_no_energy c a b LOGFB _ _ _ _ _ _ I) as (v' & I' & V1 & V2). unfold compute. change (flags_ok _ false false false) with true. cbn [negb]. rewrite I'. cbn [bind]. rewrite V2.
    assert (B5 : le LOGFB b = true). { subst rb. unfold flags_ok in FO. cbn [m_out steps andb] in FO. apply andb_true_iff in FO. destruct FO as [_ FO]. destruct b; try discriminate; reflexivity. }
    replace (squared (steps (no_energy c) a LOGFB) (l_F v)) with F by (unfold F, squared; cbn [m_in m_out m_fft2 steps no_energy]; destruct b; try discriminate; reflexivity).
    replace (log_bank (steps (no_energy c) a LOGFB) F (l_B v')) with (log_bank (steps c a b) F (l_B v)) by (unfold log_bank; cbn [m_in m_out m_fb steps no_energy]; rewrite LA, B5; reflexivity). rewrite LB. cbn [bind]. unfold cepstra. cbn [m_in m_out steps eqs value Nat.eqb]. rewrite andb_false_r. cbn [bind m_out steps]. rewrite X1. reflexivity.
Qed.
(** ** Through the log spectrum: not exact, all the magnitudes have grown by 1e-10 *)
Theorem C82_via_log_spec c b noise fft dct st st2 F o : m_energy c = false -> b = LOGFB \/ b = CEPSTRUM -> (forall r v, In r F -> In v r -> 0 <= v) ->
  compute (steps c FFT_MAG LOG_SPEC) noise fft dct false false false st (Rows F) = Ok o ->
  result (compute (steps c LOG_SPEC b) noise fft dct false false false st2 (o_R o)) = result (compute (steps c FFT_MAG b) noise fft dct false false false st (Rows (map (map (fun v => v + / 10 ^ 10)) F))).
Proof.
  intros EN HB P H. unfold compute in H. change (flags_ok _ false false false) with true in H. cbn [negb input m_in steps] in H. unfold energy in H. cbn [m_energy steps] in H. rewrite EN in H. cbn [bind l_F l_B l_E l_X] in H. unfold squared, log_bank, cepstra, put in H. cbn [m_in m_out m_fb m_nceps m_lift m_energy m_fft2 steps le value Nat.leb andb eqs Nat.eqb bound bind] in H. rewrite ?EN in H. cbn [bind] in H. assert (HO : o_R o = Rows (map (map (fun a => ln (a + / 10 ^ 10))) F)) by (injection H as <-; reflexivity). rewrite HO. clear H HO.
  assert (X : map (map exp) (map (map (fun a => ln (a + / 10 ^ 10))) F) = map (map (fun v => v + / 10 ^ 10)) F).
  { rewrite map_map. apply map_ext_in. intros r R1. rewrite map_map. apply map_ext_in. intros v V1. specialize (P r v R1 V1). apply exp_ln. assert (0 < / 10 ^ 10) by (apply Rinv_0_lt_compat, pow_lt; lra). lra. }
  unfold compute. change (flags_ok _ false false false) with true. change (flags_ok _ false false false) with true. cbn [negb input m_in steps]. unfold energy. cbn [m_energy steps]. rewrite EN. cbn [bind l_F l_B l_E l_X]. rewrite X.
  destruct HB as [->| ->]; unfold squared, log_bank, cepstra, put; cbn [m_in m_out m_fb m_nceps m_lift m_energy m_fft2 steps le value Nat.leb andb eqs Nat.eqb bound bind]; rewrite ?EN; destruct (apply_bank (m_fb c) _) as [D|]; cbn [bind]; try reflexivity.
  destruct (Rlt_dec 0 (m_lift c)); cbn [bound bind]; [|reflexivity]. destruct (mapM _ _) as [Q|]; reflexivity.
Qed.
(** ** Windows *)
Lemma power_range x y : 0 <= y -> 0 <= x <= 1 -> 0 <= power x y <= 1 /\ (power x y = 0 <-> x = 0).
Proof.
  intros Y X. unfold power. destruct (Rle_dec x 0) as [Q|Q]; [split; [lra|split; [intros; lra|reflexivity]]|]. assert (0 < Rpower x y) by apply exp_pos. split; [|split; intros; lra]. split; [lra|].
  unfold Rpower. rewrite <- exp_0. destruct (Req_dec (y * ln x) 0) as [E|E]; [rewrite E; lra|]. left. apply exp_increasing. assert (ln x <= 0). { destruct (Req_dec x 1) as [->|N]; [rewrite ln_1; lra|]. left. rewrite <- ln_1. apply ln_increasing; lra. } nra.
Qed.
Lemma cos_lt_1 x : 0 < x < 2 * PI -> cos x < 1.
Proof. intros [A B]. assert (0 < sin (x / 2)) by (apply sin_gt_0; lra). replace x with (2 * (x / 2)) by field. rewrite cos_2a_sin. nra. Qed.
Lemma angle_range N n : (0 < n < N)%nat -> 0 < angle N n < 2 * PI.
Proof.
  intros [A B]. unfold angle. assert (0 < INR n) by (apply lt_0_INR; lia). assert (INR n < INR N) by (apply lt_INR; lia). pose proof PI_RGT_0. split.
  - apply Rmult_lt_0_compat; [apply Rdiv_lt_0_compat; lra|lra]. - apply (Rmult_lt_reg_r (INR N)); [lra|]. replace (2 * PI / INR N * INR n * INR N) with (2 * PI * INR n) by (field; lra). nra.
Qed.
(** every window lies in [0,1] and is symmetric about the middle of the frame; povey, hanning and blackman are zero at the first sample and
    nowhere else; two hanning windows half a frame apart add up to 1 *)
Theorem C82_windows t N n : (n < N)%nat ->
  List.length (window t N) = N /\ nth n (window t N) 0 = window_at t N n /\ 0 <= window_at t N n <= 1 /\ ((0 < n)%nat -> window_at t N (N - n) = window_at t N n) /\
  (window_at t N n = 0 <-> n = 0%nat /\ (t = Povey \/ t = Hanning \/ t = Blackman)) /\
  (forall m, N = (2 * m)%nat -> window_at Hanning N n + window_at Hanning N (n + m) = 1).
Proof.
  intros H. assert (0 < INR N) by (apply lt_0_INR; lia). assert (A0 : angle N 0 = 0) by (unfold angle; simpl; ring). split; [unfold window; rewrite map_length; apply seq_length|]. split.
  { unfold window. rewrite (nth_indep _ 0 (window_at t N 0)) by (rewrite map_length, seq_length; exact H). rewrite map_nth, seq_nth by exact H. reflexivity. }
  pose proof (COS_bound (angle N n)) as CB. assert (PW : 0 <= 5 / 10 - 5 / 10 * cos (angle N n) <= 1) by lra. destruct (power_range _ (85 / 100) ltac:(lra) PW) as [PR PZ].
  assert (C2 : cos (2 * angle N n) = 2 * cos (angle N n) * cos (angle N n) - 1) by apply cos_2a_cos.
  assert (C1 : (0 < n)%nat -> cos (angle N n) < 1) by (intros Q; apply cos_lt_1, angle_range; lia). assert (C0 : n = 0%nat -> cos (angle N n) = 1) by (intros ->; rewrite A0; apply cos_0).
  split; [|split; [|split]].
  - destruct t; simpl; try lra. rewrite C2. set (c := cos (angle N n)) in *. clearbody c. nra.
  - intros P. assert (E : cos (angle N (N - n)) = cos (angle N n) /\ cos (2 * angle N (N - n)) = cos (2 * angle N n)).
    { assert (angle N (N - n) = - angle N n + 2 * PI) as ->. { unfold angle. rewrite minus_INR by lia. field. lra. } split.
      - rewrite (cos_plus _ (2 * PI)), cos_2PI, sin_2PI, cos_neg. ring.
      - replace (2 * (- angle N n + 2 * PI)) with (- (2 * angle N n) + 2 * INR 2 * PI) by (simpl; ring). rewrite cos_period, cos_neg. reflexivity. }
    destruct E as [E1 E2]. destruct t; simpl; rewrite ?E1, ?E2; reflexivity.
  - destruct (Nat.eq_dec n 0) as [Q|Q].
    + specialize (C0 Q). rewrite C0 in PZ. destruct t; simpl; rewrite ?C2, ?C0.
      * split; [intros _; split; [exact Q|left; reflexivity]|intros _; apply PZ; lra]. * split; [intros; lra|intros [_ [K|[K|K]]]; discriminate]. * split; [intros _; split; [exact Q|right; left; reflexivity]|intros; lra]. * split; [intros _; split; [exact Q|right; right; reflexivity]|intros; lra]. * split; [intros; lra|intros [_ [K|[K|K]]]; discriminate].
    + specialize (C1 ltac:(lia)). split; [|intros [K _]; contradiction]. intros K. exfalso. destruct t; simpl in K.
      * apply PZ in K. lra. * lra. * lra. * rewrite C2 in K. set (c := cos (angle N n)) in *. clearbody c. nra. * lra.
  - intros m ->. cbn [window_at]. assert (INR m <> 0) by (rewrite mult_INR in H0; simpl in H0; lra). assert (angle (2 * m) (n + m) = angle (2 * m) n + PI) as ->. { unfold angle. rewrite plus_INR, mult_INR. simpl. field. exact H1. } rewrite neg_cos. field.
Qed.
(** configurations that meet the hypotheses *)
Example C82_witness : exists c x (fft : nat -> list R -> list C) (dct : list R -> list R), m_energy c = true /\ no_first_bin (m_fb c) /\ consistent c 2 fft dct /\ shaped (steps c WAVE CEPSTRUM) 2 (Wave x) /\ computable (m_energy c) WAVE CEPSTRUM = true /\ row_at c fft dct reset x 1 = [Rmax (ln (5 + / 10 ^ 15)) (ln (0 + / 10 ^ 15))].
Proof.
  exists (mk_mfcc WAVE CEPSTRUM 2 1 2 true 0 false 0 [1; 1] true true true 0 [[0; 1]] 1 0), [3; 1; 2], (fun n y => [(Rsum y, 0); (Rsum y, 0)]), (fun r => r). split; [reflexivity|]. split; [intros w [<-|[]]; exists [1]; reflexivity|]. split; [|split; [|split]].
  - split; [simpl; lia|]. split; [intros r [<-|[]]; reflexivity|]. split; [reflexivity|]. split; [reflexivity|]. simpl. lia.
  - cbn. split; [reflexivity|]. split; [lia|]. split; [lia|]. split; [reflexivity|lra].
  - reflexivity.
  - unfold row_at, energy_at, ceps_at, after_dc. cbn [m_energy m_raw m_dc m_lift m_floor m_s m_L m_nceps]. destruct (Rlt_dec 0 0); [lra|]. cbn [seq map nth Nat.add Nat.mul bands_at m_fb firstn tl]. unfold Rsum, Rsqr. cbn [fold_right]. do 4 f_equal. ring.
Qed.
Print Assumptions C82_via_logfb. Print Assumptions C82_logfb_refuted. Print Assumptions C82_via_fft_mag. Print Assumptions C82_via_fft. Print Assumptions C82_fft_stage_refuted. Print Assumptions C82_steps. Print Assumptions C82_rows. Print Assumptions C82_caller.
Print Assumptions C82_caller_refuted. Print Assumptions C82_history_refuted. Print Assumptions C82_flags. Print Assumptions C82_via_log_spec. Print Assumptions C82_windows.
