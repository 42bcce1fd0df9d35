(** Reading never changes the contents of a file. *)
From Verif Require Import BaseFacts.
From Verif Require Export Kaldi.
Open Scope list_scope.
Open Scope Z_scope.

Lemma f_read_keeps f n d f' : f_read f n = Ok (d, f') -> f_bytes f' = f_bytes f.
Proof. unfold f_read. destruct (n <? -1); [discriminate|]. intros H. injection H as <- <-. reflexivity. Qed.
Lemma f_seek_cur_keeps f n f' : f_seek_cur f n = Ok f' -> f_bytes f' = f_bytes f.
Proof. unfold f_seek_cur. destruct (_ <? 0); [discriminate|]. intros H. injection H as <-. reflexivity. Qed.
Lemma f_peek_keeps f d f' : f_peek f = (d, f') -> f_bytes f' = f_bytes f.
Proof. unfold f_peek. intros H. injection H as <- <-. reflexivity. Qed.

Ltac keeps_step :=
  match goal with
  | H : bind ?x _ = Ok _ |- _ =>
      let E := fresh "E" in destruct x eqn:E; [cbn [bind] in H|discriminate H]
  | H : Err _ = Ok _ |- _ => discriminate H
  | H : Ok _ = Ok _ |- _ => injection H as; subst
  | p : (_ * _)%type |- _ => destruct p
  | H : f_read _ _ = Ok _ |- _ => apply f_read_keeps in H
  | H : f_seek_cur _ _ = Ok _ |- _ => apply f_seek_cur_keeps in H
  | H : f_peek _ = _ |- _ => apply f_peek_keeps in H
  | H : (let (_, _) := f_peek ?f in _) = Ok _ |- _ =>
      let E := fresh "E" in destruct (f_peek f) eqn:E
  | H : (if ?b then _ else _) = Ok _ |- _ => let E := fresh "E" in destruct b eqn:E
  end.
Ltac keeps := repeat (keeps_step; cbn [fst snd] in * ); try congruence.

Lemma read_token_loop_keeps fuel : forall f t x f', read_token_loop fuel f t = Ok (x, f') -> f_bytes f' = f_bytes f.
Proof.
  induction fuel as [|fuel IH]; intros f t x f' H; [discriminate|]. cbn [read_token_loop] in H.
  destruct (f_read f 1) as [[c f1]|] eqn:E; [|discriminate]. cbn [bind] in H. apply f_read_keeps in E.
  destruct c as [|b c]; [injection H as <- <-; exact E|].
  destruct (Ascii.eqb b space); [injection H as <- <-; exact E|]. apply IH in H. congruence.
Qed.
Lemma skip_single_keeps fuel : forall f f', skip_single_spaces fuel f = Ok f' -> f_bytes f' = f_bytes f.
Proof.
  induction fuel as [|fuel IH]; intros f f' H; [discriminate|]. cbn [skip_single_spaces] in H.
  destruct (f_peek f) as [p f1] eqn:E. apply f_peek_keeps in E.
  destruct p as [|b [|b' p]]; [injection H as <-; exact E| |injection H as <-; exact E].
  destruct (Ascii.eqb b space); [|injection H as <-; exact E].
  destruct (f_read f1 1) as [[c f2]|] eqn:E2; [|discriminate]. cbn [bind] in H. apply f_read_keeps in E2.
  apply IH in H. congruence.
Qed.
Lemma read_token_keeps f b x f' : read_token f b = Ok (x, f') -> f_bytes f' = f_bytes f.
Proof.
  unfold read_token. intros H.
  destruct (if b then Ok f else skip_single_spaces _ f) as [f1|] eqn:E; [|discriminate]. cbn [bind] in H.
  destruct (read_token_loop _ f1 []) as [[t f2]|] eqn:E2; [|discriminate]. cbn [bind] in H.
  apply read_token_loop_keeps in E2.
  destruct (decode_ascii t); [|discriminate]. cbn [bind] in H. injection H as <- <-.
  destruct b; [injection E as <-; exact E2|]. apply skip_single_keeps in E. congruence.
Qed.
Lemma read_int32_keeps f x f' : read_int32 f = Ok (x, f') -> f_bytes f' = f_bytes f.
Proof. unfold read_int32. intros H. keeps. Qed.
Lemma peek_keeps f n x f' : peek f n = Ok (x, f') -> f_bytes f' = f_bytes f.
Proof. unfold peek. intros H. keeps. Qed.
Lemma init_stream_keeps f x f' : init_kaldi_input_stream f = Ok (x, f') -> f_bytes f' = f_bytes f.
Proof.
  unfold init_kaldi_input_stream. intros H. destruct (peek f 2) as [[p f1]|] eqn:E; [|discriminate].
  apply peek_keeps in E. keeps.
Qed.
Lemma read_cols_keeps n : forall f a b c acc x f', read_cols n f a b c acc = Ok (x, f') -> f_bytes f' = f_bytes f.
Proof.
  induction n as [|n IH]; intros f a b c acc x f' H; [injection H as <- <-; reflexivity|].
  cbn [read_cols] in H.
  destruct (if 0 <? a then f_seek_cur f a else Ok f) as [f1|] eqn:E; [|discriminate]. cbn [bind] in H.
  assert (F1 : f_bytes f1 = f_bytes f) by (destruct (0 <? a); [apply f_seek_cur_keeps in E; exact E|congruence]).
  destruct (f_read f1 b) as [[d f2]|] eqn:E2; [|discriminate]. cbn [bind] in H. apply f_read_keeps in E2.
  destruct (if 0 <? c then f_seek_cur f2 c else Ok f2) as [f3|] eqn:E3; [|discriminate]. cbn [bind] in H.
  assert (F3 : f_bytes f3 = f_bytes f2) by (destruct (0 <? c); [apply f_seek_cur_keeps in E3; exact E3|congruence]).
  apply IH in H. congruence.
Qed.
Ltac keeps2_step :=
  match goal with
  | H : read_token _ _ = Ok _ |- _ => apply read_token_keeps in H
  | H : read_int32 _ = Ok _ |- _ => apply read_int32_keeps in H
  | H : peek _ _ = Ok _ |- _ => apply peek_keeps in H
  | H : read_cols _ _ _ _ _ _ = Ok _ |- _ => apply read_cols_keeps in H
  | _ => keeps_step
  end.
Ltac keeps2 := repeat (keeps2_step; cbn [fst snd] in * ); try congruence.

Lemma cm_read_keeps f r n x f' : cm_read f r n = Ok (x, f') -> f_bytes f' = f_bytes f.
Proof. unfold cm_read. intros H. keeps2. Qed.
Lemma km_read_raw_keeps f r n s x f' : km_read_raw f r n s = Ok (x, f') -> f_bytes f' = f_bytes f.
Proof. unfold km_read_raw. intros H. keeps2. Qed.
Lemma km_read_keeps dec f r n s x f' : km_read dec f r n s = Ok (x, f') -> f_bytes f' = f_bytes f.
Proof.
  unfold km_read. intros H. destruct (peek f 1) as [[p f1]|] eqn:E; [|discriminate]. cbn [bind] in H.
  apply peek_keeps in E. destruct (bytes_eqb p _).
  - destruct (peek f1 1) as [[q f2]|] eqn:E2; [|discriminate]. cbn [bind] in H. apply peek_keeps in E2.
    destruct (cm_read f2 r n) as [[c f3]|] eqn:E3; [|discriminate]. cbn [bind] in H. apply cm_read_keeps in E3.
    destruct (cm_to_ndarray dec c); [|discriminate]. cbn [bind] in H. injection H as <- <-. congruence.
  - apply km_read_raw_keeps in H. congruence.
Qed.
Lemma cm_read_shape_keeps f s x f' : cm_read_shape f s = Ok (x, f') -> f_bytes f' = f_bytes f.
Proof. unfold cm_read_shape. intros H. keeps2. Qed.
Lemma km_read_shape_keeps f s x f' : km_read_shape f s = Ok (x, f') -> f_bytes f' = f_bytes f.
Proof.
  unfold km_read_shape. intros H. destruct (peek f 1) as [[p f1]|] eqn:E; [|discriminate]. cbn [bind] in H.
  apply peek_keeps in E. destruct (bytes_eqb p _).
  - destruct (peek f1 1) as [[q f2]|] eqn:E2; [|discriminate]. cbn [bind] in H. apply peek_keeps in E2.
    apply cm_read_shape_keeps in H. congruence.
  - keeps2.
Qed.
