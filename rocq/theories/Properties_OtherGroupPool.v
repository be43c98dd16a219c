(** C112: pooling layers called on signals with another group axis than they were built for. *)
From Verif Require Import SignalFacts PoolFacts GroupedFacts TranslationFacts Properties_Pooling Properties_PoolBuild Properties_OtherGroup PoolSpec.
Local Open Scope string_scope.
Local Open Scope list_scope.

Section OtherGroupPool.
Context {A : Type} {RA : Arith A} {PA : Pool A}.

(** Pooling layers read the first entries along the group axis and ignore the others; too few raise.  (The layer is one that returns
    on some signal: that excludes padding options that Keras does not know.) *)
Theorem C112_pooling name G d t (a : pool_args) H opt bs m g c L k s (x : tensor A) b m' g' c' :
  pooling_for name G a -> pa_subgroup a = Some H -> pool_option a opt ->
  pooling_built d t a (static_signal_shape true bs m g c) L -> List.length m = d -> pool_sizes d a k s ->
  (exists x0 y0 : tensor A, pool_call L x0 = Ok y0) ->
  wf x -> List.length m' = d -> shape x = b :: m' ++ [g'; c'] ->
  g = g_order G /\
  (g' < g -> pool_call L x = Err BackendError) /\
  (g <= g' -> pool_call L x = pool_call L (group_part b m' g c' 0 x)).
Proof.
  intros PF HS OP B Lm SZ [x0 [y0 C0]] W Lm' SH. unfold static_signal_shape in B.
  destruct (pooling_facts name G d t a H opt bs m g c L k s x0 y0 PF HS OP B Lm SZ C0) as [OK [GN [_ [eb [ea [sub [cos [DS [DC [SA F]]]]]]]]]].
  destruct F. destruct (ok_cos _ _ _ _ OK _ _ DS) as [cos' [DC' [_ [BC [CV _]]]]]. rewrite DC in DC'.
  assert (cos' = cos) as -> by congruence. clear DC'.
  set (n := List.length (symmetries_of name)) in *.
  split; [rewrite GN; symmetry; apply (ok_order _ _ _ _ OK)|].
  set (I0 := tab [List.length sub; List.length cos] (fun i => comp G (nth (nth 0 i 0) sub 0) (nth (nth 1 i 0) cos 0))) in *.
  assert (LS : forall u, List.length (b :: m' ++ [u; c']) = d + 3) by (intros u; cbn [List.length]; rewrite app_length; cbn [List.length]; lia).
  split.
  - intros LT. unfold pool_call, subgroup_pooling. rewrite pf_idx, pf_gaxis.
    unfold take, rank. rewrite SH, LS, norm_axis_nat by lia. cbn [bind]. rewrite (chan_ix d b m' g' [c'] Lm').
    replace (forallb _ _) with false; [reflexivity|]. symmetry. apply not_true_iff_false. intros Q. rewrite forallb_forall in Q.
    destruct (CV (n - 1)) as [h [e [IH [IE CE]]]]; [pose proof (ok_pos _ _ _ _ OK); unfold n; lia|].
    destruct (In_nth _ _ 0 IH) as [ih [HI EH]]. destruct (In_nth _ _ 0 IE) as [ie [EI EE]].
    assert (V : In (n - 1) (data I0)).
    { unfold I0, tab. cbn [data]. apply in_map_iff. exists [ih; ie]. split; [cbn [nth]; rewrite EH, EE; exact CE|].
      apply In_indices. apply inb_cons. split; [exact HI|]. apply inb_cons. split; [exact EI|apply inb_nil]. }
    apply Q in V. apply Nat.ltb_lt in V. lia.
  - intros LE. rewrite (tensor_sig4 d b m' g' c' x W Lm' SH) at 1.
    assert (PE : group_part b m' g c' 0 x = tab (b :: m' ++ [g; c']) (sig4 d (fun4 x))).
    { unfold group_part. cbv zeta. rewrite Lm'. apply tab_ext. intros i I. apply inb4_inv in I as [bi [p [h [q [-> [BI [P [HH Q]]]]]]]].
      pose proof (inb_length _ _ P) as LP. rewrite sig4_ix by lia. rewrite chan_ix, chan_ix2 by lia. unfold fun4.
      rewrite Nat.add_1_r. cbn [firstn app Nat.mul Nat.add]. rewrite firstn_app_exact by lia. reflexivity. }
    rewrite PE. unfold pool_call. cbv zeta.
    assert (SE : forall f, subgroup_pooling f (po_gt L) (tab (b :: m' ++ [g'; c']) (sig4 d (fun4 x)))
                         = subgroup_pooling f (po_gt L) (tab (b :: m' ++ [g; c']) (sig4 d (fun4 x)))).
    { intros f. unfold subgroup_pooling. rewrite pf_idx, pf_gaxis.
      assert (TT : forall u, g <= u -> take (tab (b :: m' ++ [u; c']) (sig4 d (fun4 x))) I0 (Z.of_nat (d + 1)) =
          Ok (tab (b :: m' ++ [List.length sub; List.length cos; c']) (fun i => sig4 d (fun4 x) (firstn (d + 1) i ++ nth (ravel (shape I0) (firstn (List.length (shape I0)) (skipn (d + 1) i))) (data I0) 0 :: skipn (d + 1 + List.length (shape I0)) i)))).
      { intros u LU. unfold take. rewrite rank_tab, LS, norm_axis_nat by lia. cbn [bind]. rewrite shape_tab, (chan_ix d b m' u [c'] Lm').
        replace (forallb _ _) with true.
        2:{ symmetry. apply forallb_forall. intros v V. apply In_data_tab in V as [i [I ->]]. apply inb2 in I as [h [e [-> [HH CC]]]]. cbn [nth].
            apply Nat.ltb_lt. eapply Nat.lt_le_trans; [|exact LU]. rewrite GN. apply (ok_closed _ _ _ _ OK); [apply pf_sub, nth_In; exact HH|apply pf_cos, nth_In; exact CC]. }
        f_equal.
        assert (SHu : firstn (d + 1) (b :: m' ++ [u; c']) ++ shape I0 ++ skipn (S (d + 1)) (b :: m' ++ [u; c']) = b :: m' ++ [List.length sub; List.length cos; c']).
        { unfold I0. rewrite shape_tab. replace (skipn (S (d + 1)) (b :: m' ++ [u; c'])) with [c'].
          - rewrite Nat.add_1_r. cbn [firstn app]. rewrite firstn_app_exact by lia. reflexivity.
          - change (b :: m' ++ [u; c']) with ((b :: m') ++ u :: [c']). symmetry. apply skipn_S_app. cbn [List.length]. lia. }
        rewrite SHu. apply tab_ext. intros i I. apply at_tab.
        destruct i as [|bi i]; [inversion I|]. apply inb_cons in I as [BI I]. apply inb_app_split in I as [p [r [-> [P R]]]].
        destruct r as [|h r]; [inversion R|]. apply inb_cons in R as [HH R]. apply inb2 in R as [e [q [-> [EE QQ]]]].
        pose proof (inb_length _ _ P) as LP. rewrite Lm' in LP. rewrite Nat.add_1_r. cbn [firstn skipn app]. rewrite firstn_app_exact by lia.
        rewrite skipn_app_exact by lia. unfold I0. rewrite !shape_tab. cbn [List.length firstn].
        replace (S d + 2) with (S (d + 2)) by lia. cbn [skipn].
        replace (skipn (d + 2) (p ++ [h; e; q])) with [q].
        2:{ replace (p ++ [h; e; q]) with ((p ++ [h; e]) ++ [q]) by (rewrite <- app_assoc; reflexivity). symmetry. apply skipn_app_exact. rewrite app_length. cbn [List.length]. lia. }
        assert (IB : inb [List.length sub; List.length cos] [h; e]) by (apply inb_cons; split; [exact HH|apply inb_cons; split; [exact EE|apply inb_nil]]).
        apply inb4; [exact BI|exact P| |exact QQ].
        pose proof (at_tab [List.length sub; List.length cos] (fun i => comp G (nth (nth 0 i 0) sub 0) (nth (nth 1 i 0) cos 0)) [h; e] IB) as AT.
        unfold at_ in AT. rewrite shape_tab in AT. fold I0 in AT |- *. replace (nth (ravel [List.length sub; List.length cos] [h; e]) (data I0) 0) with (comp G (nth h sub 0) (nth e cos 0)).
        eapply Nat.lt_le_trans; [|exact LU]. rewrite GN. apply (ok_closed _ _ _ _ OK); [apply pf_sub, nth_In; exact HH|apply pf_cos, nth_In; exact EE]. }
      rewrite (TT g' LE), (TT g (le_n g)). reflexivity. }
    rewrite SE. reflexivity.
Qed.

End OtherGroupPool.
Print Assumptions C112_pooling.

(** Maxima over the trivial subgroup of PMw, of signals with 2, 3 and 1 entries along the group axis. *)
Example C112_case_pooling :
  match test_pool 2 "max" (mkPoolArgs (ByName "PMw") (Some "") (One 1) (Some (One 1)) (Some (Some "valid_equiv")) "channels_last" false) [None; Some 1; Some 1; Some 2; Some 1] with
  | Ok L => (pool_call L (mkTensor [1; 1; 1; 2; 1] [4; 7]%Z), pool_call L (mkTensor [1; 1; 1; 3; 1] [4; 7; 9]%Z), pool_call L (mkTensor [1; 1; 1; 1; 1] [4]%Z))
      = (Ok (mkTensor [1; 1; 1; 2; 1] [4; 7]%Z), Ok (mkTensor [1; 1; 1; 2; 1] [4; 7]%Z), Err BackendError)
  | Err _ => False
  end.
Proof. vm_compute. reflexivity. Qed.
