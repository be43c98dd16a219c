(** The action functions of the groups, entry by entry. *)
From Verif Require Export Space Spec UtilsFacts.

Section Wallpaper.
Context {A : Type} {ZA : Zero A}.

Lemma open_action_tab k s (f : list nat -> A) h w :
  k <= List.length s ->
  open_action (tab s f) [Z.of_nat h; Z.of_nat w] (Z.of_nat k)
  = Ok (stk k 1 s (fun _ => f), Z.of_nat (shift k h), Z.of_nat (shift k w)).
Proof.
  intros K. unfold open_action. rewrite expand_dims_tab by auto. cbn [bind].
  rewrite !shift_Z. reflexivity.
Qed.

Lemma swapped_axes_nat r h w :
  h < r -> w < r -> swapped_axes r (Z.of_nat h) (Z.of_nat w) = Ok (upd w h (upd h w (seq 0 r))).
Proof.
  intros H W. unfold swapped_axes.
  rewrite !(py_nth_nat _ _ 0) by (rewrite seq_length; auto). cbn [bind].
  rewrite py_set_nat by (rewrite seq_length; auto). cbn [bind].
  rewrite py_set_nat by (rewrite length_upd, seq_length; auto).
  rewrite !nth_seq0 by auto. reflexivity.
Qed.

Ltac idx_tac :=
  unfold pixel_at, gather, swapi; cbn -[Nat.sub];
  apply nth_ext0; [rewrite ?length_upd; reflexivity|];
  let m := fresh "m" in let M := fresh "M" in intros m M;
  rewrite ?length_upd in M;
  repeat (rewrite nth_upd by (rewrite ?length_upd; lia));
  repeat match goal with |- context[?a =? ?b] => destruct (Nat.eqb_spec a b); subst; try lia end.

Section Two.
Variables (k : nat) (s : list nat) (f : list nat -> A) (h w : nat).
Hypothesis K : k <= List.length s.
Hypothesis H : h < List.length s.
Hypothesis W : w < List.length s.
Hypothesis N : h <> w.

Lemma P1_action_tab :
  P1_action (tab s f) [Z.of_nat h; Z.of_nat w] (Z.of_nat k)
  = Ok (stk k 1 s (fun g i => f (pixel_at (nth g P1_symmetries []) [h; w] s i))).
Proof.
  unfold P1_action. rewrite expand_dims_tab by auto. f_equal. apply stk_ext; auto.
  intros g i G I. pose proof (inb_length _ _ I). f_equal.
  destruct g as [|g]; [|lia]. idx_tac; reflexivity.
Qed.

Lemma P2_action_tab :
  P2_action (tab s f) [Z.of_nat h; Z.of_nat w] (Z.of_nat k)
  = Ok (stk k 2 s (fun g i => f (pixel_at (nth g P2_symmetries []) [h; w] s i))).
Proof.
  unfold P2_action. rewrite open_action_tab by auto. cbn [bind].
  rewrite !flip_stk by auto. cbn [bind]. rewrite flip_stk by auto. cbn [bind].
  rewrite concatenate_stk2 by auto. f_equal. apply stk_ext; auto.
  intros g i G I. pose proof (inb_length _ _ I).
  do 2 (destruct g as [|g]; [apply (f_equal f); idx_tac; reflexivity|]). lia.
Qed.

Lemma PMw_action_tab :
  PMw_action (tab s f) [Z.of_nat h; Z.of_nat w] (Z.of_nat k)
  = Ok (stk k 2 s (fun g i => f (pixel_at (nth g PMw_symmetries []) [h; w] s i))).
Proof.
  unfold PMw_action. rewrite open_action_tab by auto. cbn [bind].
  rewrite flip_stk by auto. cbn [bind].
  rewrite concatenate_stk2 by auto. f_equal. apply stk_ext; auto.
  intros g i G I. pose proof (inb_length _ _ I).
  do 2 (destruct g as [|g]; [apply (f_equal f); idx_tac; reflexivity|]). lia.
Qed.

Lemma PMh_action_tab :
  PMh_action (tab s f) [Z.of_nat h; Z.of_nat w] (Z.of_nat k)
  = Ok (stk k 2 s (fun g i => f (pixel_at (nth g PMh_symmetries []) [h; w] s i))).
Proof.
  unfold PMh_action. rewrite open_action_tab by auto. cbn [bind].
  rewrite flip_stk by auto. cbn [bind].
  rewrite concatenate_stk2 by auto. f_equal. apply stk_ext; auto.
  intros g i G I. pose proof (inb_length _ _ I).
  do 2 (destruct g as [|g]; [apply (f_equal f); idx_tac; reflexivity|]). lia.
Qed.

Lemma P2MM_action_tab :
  P2MM_action (tab s f) [Z.of_nat h; Z.of_nat w] (Z.of_nat k)
  = Ok (stk k 4 s (fun g i => f (pixel_at (nth g P2MM_symmetries []) [h; w] s i))).
Proof.
  unfold P2MM_action. rewrite open_action_tab by auto. cbn [bind].
  rewrite flip_stk by auto. cbn [bind].
  rewrite concatenate_stk2 by auto. cbn [bind].
  rewrite flip_stk by auto. cbn [bind].
  rewrite concatenate_stk2 by auto. f_equal. apply stk_ext; auto.
  intros g i G I. pose proof (inb_length _ _ I).
  do 4 (destruct g as [|g]; [apply (f_equal f); idx_tac; reflexivity|]). lia.
Qed.

Lemma swapi_square : nth h s 0 = nth w s 0 -> swapi h w s = s.
Proof.
  intros Q. apply nth_ext0; [apply length_swapi|]. rewrite length_swapi. intros m M.
  rewrite nth_swapi by auto. destruct (Nat.eqb_spec m h) as [->|]; auto.
  destruct (Nat.eqb_spec m w) as [->|]; auto.
Qed.

Lemma swapi_not_square : nth h s 0 <> nth w s 0 -> s <> swapi h w s.
Proof.
  intros Q E. apply Q. rewrite E at 1. rewrite nth_swapi by auto. rewrite Nat.eqb_refl. reflexivity.
Qed.

Lemma P4_action_tab :
  nth h s 0 = nth w s 0 ->
  P4_action (tab s f) [Z.of_nat h; Z.of_nat w] (Z.of_nat k)
  = Ok (stk k 4 s (fun g i => f (pixel_at (nth g P4_symmetries []) [h; w] s i))).
Proof.
  intros Q. unfold P4_action. rewrite open_action_tab by auto. cbn [bind].
  rewrite flip_stk by auto. cbn [bind]. rewrite flip_stk by auto. cbn [bind].
  rewrite concatenate_stk2 by auto. cbn [bind].
  rewrite rank_stk, swapped_axes_nat by (apply shift_lt; auto). cbn [bind].
  rewrite transpose_swap_stk by auto. cbn [bind]. rewrite swapi_square by auto.
  rewrite flip_stk by auto. cbn [bind].
  rewrite concatenate_stk2 by auto. cbn [bind].
  rewrite take_stk; [|auto|cbn; intros v V; lia]. f_equal. apply stk_ext; auto.
  intros g i G I. pose proof (inb_length _ _ I).
  pose proof (inb_nth _ _ _ I H). pose proof (inb_nth _ _ _ I W).
  do 4 (destruct g as [|g]; [apply (f_equal f); idx_tac; reflexivity|]).
  cbn in G; lia.
Qed.

Lemma P4M_action_tab :
  nth h s 0 = nth w s 0 ->
  P4M_action (tab s f) [Z.of_nat h; Z.of_nat w] (Z.of_nat k)
  = Ok (stk k 8 s (fun g i => f (pixel_at (nth g P4M_symmetries []) [h; w] s i))).
Proof.
  intros Q. unfold P4M_action. rewrite open_action_tab by auto. cbn [bind].
  rewrite flip_stk by auto. cbn [bind].
  rewrite concatenate_stk2 by auto. cbn [bind].
  rewrite flip_stk by auto. cbn [bind].
  rewrite concatenate_stk2 by auto. cbn [bind].
  rewrite rank_stk, swapped_axes_nat by (apply shift_lt; auto). cbn [bind].
  rewrite transpose_swap_stk by auto. cbn [bind]. rewrite swapi_square by auto.
  rewrite concatenate_stk2 by auto. cbn [bind].
  rewrite take_stk; [|auto|cbn; intros v V; lia]. f_equal. apply stk_ext; auto.
  intros g i G I. pose proof (inb_length _ _ I).
  pose proof (inb_nth _ _ _ I H). pose proof (inb_nth _ _ _ I W).
  do 8 (destruct g as [|g]; [apply (f_equal f); idx_tac; reflexivity|]).
  cbn in G; lia.
Qed.

Lemma P4_action_not_square :
  nth h s 0 <> nth w s 0 ->
  P4_action (tab s f) [Z.of_nat h; Z.of_nat w] (Z.of_nat k) = Err BackendError.
Proof.
  intros Q. unfold P4_action. rewrite open_action_tab by auto. cbn [bind].
  rewrite flip_stk by auto. cbn [bind]. rewrite flip_stk by auto. cbn [bind].
  rewrite concatenate_stk2 by auto. cbn [bind].
  rewrite rank_stk, swapped_axes_nat by (apply shift_lt; auto). cbn [bind].
  rewrite transpose_swap_stk by auto. cbn [bind].
  rewrite flip_stk by (rewrite length_swapi; auto). cbn [bind].
  rewrite concatenate_stk2_bad; auto.
  - rewrite length_swapi; auto.
  - apply swapi_not_square; auto.
Qed.

Lemma P4M_action_not_square :
  nth h s 0 <> nth w s 0 ->
  P4M_action (tab s f) [Z.of_nat h; Z.of_nat w] (Z.of_nat k) = Err BackendError.
Proof.
  intros Q. unfold P4M_action. rewrite open_action_tab by auto. cbn [bind].
  rewrite flip_stk by auto. cbn [bind].
  rewrite concatenate_stk2 by auto. cbn [bind].
  rewrite flip_stk by auto. cbn [bind].
  rewrite concatenate_stk2 by auto. cbn [bind].
  rewrite rank_stk, swapped_axes_nat by (apply shift_lt; auto). cbn [bind].
  rewrite transpose_swap_stk by auto. cbn [bind].
  rewrite concatenate_stk2_bad; auto.
  - rewrite length_swapi; auto.
  - apply swapi_not_square; auto.
Qed.

End Two.
End Wallpaper.
