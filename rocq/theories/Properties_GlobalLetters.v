(** C34: global pooling layers with 'channels_first' in another letter case. *)
From Verif Require Import TensorFacts SignalFacts Properties_Pooling PoolSpec.
Local Open Scope string_scope.
Local Open Scope list_scope.

(** The signal with its last two axes, of sizes [n] and [g], exchanged. [s] are the other sizes. *)
Definition last_two_exchanged {A} {ZA : Zero A} (s : list nat) (n g : nat) (x : tensor A) : tensor A :=
  let r := List.length s in tab (s ++ [g; n]) (fun i => at_ x (firstn r i ++ [nth (r + 1) i 0; nth r i 0])).

Section Letters.
Context {A : Type} {RA : Arith A} {PA : Pool A}.

(** Keras accepts the name of the format in any letter case, the layer itself compares it exactly. With another letter case the layer takes
    the last spatial axis for the group axis: it returns what the layer for 'channels_first' returns when these two axes are exchanged. *)
Theorem C34_other_letter_case d t fmt kd L0 L1 input L (x : tensor A) b c m n g :
  lower fmt = "channels_first" -> fmt <> "channels_first" ->
  global_init (S d) t (Some fmt) kd = Ok L0 -> global_build L0 input = Ok L ->
  global_init (S d) t (Some "channels_first") kd = Ok L1 ->
  List.length m = d -> shape x = b :: c :: m ++ [n; g] ->
  global_call L x = global_call L1 (last_two_exchanged (b :: c :: m) n g x).
Proof.
  intros LF NF I B I1 Lm SH. unfold global_init, standardize_format in I, I1. rewrite LF in I.
  change (lower "channels_first") with "channels_first" in I1.
  apply String.eqb_neq in NF. rewrite NF in I. cbn [mem_str existsb String.eqb Ascii.eqb Bool.eqb orb bind] in I, I1.
  assert (EY : forall u v : global_pool_layer, Ok u = Ok v -> u = v) by congruence.
  assert (BL : L = L0).
  { unfold global_build in B. destruct (_ =? _)%nat in B; [|discriminate B]. destruct (merge_shapes _ _ _) in B; [|discriminate B]. cbn [bind] in B. symmetry. apply EY. exact B. }
  subst L. apply EY in I. apply EY in I1. subst L0 L1.
  set (s := b :: c :: m). assert (LS : List.length s = d + 2) by (unfold s; cbn [List.length]; lia).
  change (b :: c :: m ++ [n; g]) with (s ++ [n; g]) in SH.
  unfold global_call. cbn [gp_type gp_group_axis gp_format gp_keepdims gp_dims].
  replace (Z.of_nat (S d) + 1)%Z with (Z.of_nat (d + 2)) by lia. replace (Z.of_nat (S d) + 2)%Z with (Z.of_nat (d + 3)) by lia.
  assert (RE : reduce (pool_fun t) x (Z.of_nat (d + 2)) = reduce (pool_fun t) (last_two_exchanged s n g x) (Z.of_nat (d + 3)) /\
               exists y, reduce (pool_fun t) x (Z.of_nat (d + 2)) = Ok y /\ shape y = s ++ [g]).
  { unfold reduce, last_two_exchanged, rank. cbv zeta. rewrite shape_tab, SH, !app_length, LS. cbn [List.length].
    rewrite !norm_axis_nat by lia. cbn [bind].
    replace (nth (d + 2) (s ++ [n; g]) 0) with n by (rewrite app_nth2, LS, Nat.sub_diag by lia; reflexivity).
    replace (nth (d + 3) (s ++ [g; n]) 0) with n by (rewrite app_nth2, LS by lia; replace (d + 3 - (d + 2)) with 1 by lia; reflexivity).
    assert (R1 : remove_at (d + 2) (s ++ [n; g]) = s ++ [g]).
    { unfold remove_at. rewrite firstn_app_exact by lia. rewrite skipn_S_app by lia. reflexivity. }
    assert (R2 : remove_at (d + 3) (s ++ [g; n]) = s ++ [g]).
    { unfold remove_at. replace (s ++ [g; n]) with ((s ++ [g]) ++ n :: []) by (rewrite <- app_assoc; reflexivity).
      rewrite firstn_app_exact by (rewrite app_length; cbn [List.length]; lia). rewrite skipn_S_app by (rewrite app_length; cbn [List.length]; lia). apply app_nil_r. }
    rewrite R1, R2. split; [|eexists; split; [reflexivity|apply shape_tab]].
    f_equal. apply tab_ext. intros i IB. f_equal. apply map_ext_in. intros v V. apply in_seq in V.
    apply inb_app_split in IB as [p [r [-> [P R]]]]. destruct r as [|q r]; [inversion R|]. apply inb_cons in R as [Q R].
    destruct r; [|inversion R]. pose proof (inb_length _ _ P) as LP. rewrite LS in LP.
    replace (insert_at (d + 2) v (p ++ [q])) with (p ++ [v; q]) by (rewrite <- LP; symmetry; apply insert_at_app_r).
    replace (insert_at (d + 3) v (p ++ [q])) with (p ++ [q; v]).
    2:{ replace (d + 3) with (List.length (p ++ [q])) by (rewrite app_length; cbn [List.length]; lia).
        replace (p ++ [q]) with ((p ++ [q]) ++ []) at 2 by apply app_nil_r. rewrite insert_at_app_r, <- app_assoc. reflexivity. }
    rewrite at_tab.
    2:{ apply inb_app; [exact P|]. apply inb_cons. split; [exact Q|]. apply inb_cons. split; [lia|apply inb_nil]. }
    rewrite firstn_app_exact by lia. rewrite !app_nth2 by lia. rewrite LP, Nat.sub_diag. replace (d + 2 + 1 - (d + 2)) with 1 by lia. reflexivity. }
  destruct RE as [E [y [RY SY]]]. rewrite <- E, RY. cbn [bind].
  unfold global_pool. cbn [String.eqb Ascii.eqb Bool.eqb]. unfold global_pool_first, rank. rewrite SY, app_length, LS. cbn [List.length].
  replace (d + 2 + 1 =? S d + 2)%nat with true by (symmetry; apply Nat.eqb_eq; lia). cbn [bind]. destruct kd; [|reflexivity].
  unfold expand_dims. rewrite rank_tab, shape_tab, app_length, repeat_length. unfold s. cbn [app firstn List.length].
  rewrite !norm_axis_nat by lia. cbn [bind].
  assert (IN : forall k, k <= S d -> insert_at k 1 (repeat 1 (S d)) = repeat 1 (S (S d))).
  { intros k. generalize (S d). induction k as [|k IH]; intros z Hz; [reflexivity|]. destruct z; [lia|].
    change (insert_at (S k) 1 (repeat 1 (S z))) with (1 :: insert_at k 1 (repeat 1 z)). rewrite IH by lia. reflexivity. }
  assert (I2 : forall k, k <= S d -> insert_at (k + 2) 1 (b :: c :: repeat 1 (S d)) = b :: c :: repeat 1 (S (S d))).
  { intros k Hk. rewrite <- (IN k Hk). replace (k + 2) with (S (S k)) by lia. reflexivity. }
  replace (d + 3) with (S d + 2) by lia. rewrite (I2 d), (I2 (S d)) by lia. reflexivity.
Qed.

End Letters.
Print Assumptions C34_other_letter_case.

(** A signal of 1x2 pixels with 3 group elements: the maxima are those of 'channels_first'; the means, rounded down to whole numbers, are not, but
    they are those for the exchanged axes. *)
Definition named (t fmt : string) (x : tensor Z) : result (tensor Z) :=
  L0 <- global_init 2 t (Some fmt) true ;; L <- global_build L0 (map Some (shape x)) ;; global_call L x.
Example C34_case_letters :
  let x := mkTensor [1; 1; 1; 2; 3]%nat [0; 0; 3; 1; 1; 1]%Z in
  named "max" "Channels_First" x = Ok (mkTensor [1; 1; 1; 1; 1]%nat [3]%Z) /\
  named "max" "channels_first" x = Ok (mkTensor [1; 1; 1; 1; 1]%nat [3]%Z) /\
  named "average" "Channels_First" x = Ok (mkTensor [1; 1; 1; 1; 1]%nat [0]%Z) /\
  named "average" "channels_first" x = Ok (mkTensor [1; 1; 1; 1; 1]%nat [1]%Z) /\
  named "average" "channels_first" (last_two_exchanged [1; 1; 1]%nat 2 3 x) = Ok (mkTensor [1; 1; 1; 1; 1]%nat [0]%Z).
Proof. vm_compute. repeat split. Qed.
