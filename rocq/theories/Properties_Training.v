(** C88: training an equivariant network.  Replacing training examples by transformed ones
    does not change the weights that come out. *)
From Coq Require Import Permutation.
From Verif Require Import GradientFacts BuildTheorems Properties_Build Properties_Conv Properties_Linear Properties_Exact Properties_Gradients Properties_Adjoint EquivSpec.
Local Open Scope string_scope.
Local Open Scope list_scope.

Section Training.
Context {A : Type} {RA : Arith A}.

(** A layer of a network: convolution or transposed convolution, its arguments, the
    derivative of its activation, and the signals it has been built for (on the group or on
    the grid, spatial sizes, size of the group axis, channels, and batch size if known). *)
Record block := mkBlock {
  bl_transposed : bool;
  bl_args : conv_args A;
  bl_slope : A -> A;
  bl_valued : bool;
  bl_batch : option nat;
  bl_size : list nat;
  bl_group : nat;
  bl_channels : nat;
  bl_kernel : list nat
}.

Definition block_built (d : nat) (l : block) (K B : tensor A) (L : conv_layer A) : Prop :=
  built d (bl_transposed l) (bl_args l) (static_signal_shape (bl_valued l) (bl_batch l) (bl_size l) (bl_group l) (bl_channels l)) (at_ K) (at_ B) L.

Definition block_gradients (d : nat) (l : block) (K B : tensor A) : tensor A -> tensor A -> tensor A -> tensor A -> option (tensor A) -> Prop :=
  gradients d (bl_transposed l) (bl_args l) (static_signal_shape (bl_valued l) (bl_batch l) (bl_size l) (bl_group l) (bl_channels l)) (bl_kernel l)
    (if bl_valued l then bl_group l * bl_channels l else bl_channels l) (at_ K) (at_ B) (bl_slope l).

(** Backpropagation through a network.  [D] is the gradient of the loss with respect to the
    output of the last layer, as a function of that output.  The results are the gradient
    with respect to the input, and those for the weights of all layers. *)
Inductive backward (d : nat) (D : tensor A -> tensor A)
  : list block -> list (tensor A * tensor A) -> tensor A -> tensor A -> list (tensor A * option (tensor A)) -> Prop :=
| backward_end x : backward d D [] [] x (D x) []
| backward_layer l ls K B ws b L x y dy dx dK dB gs :
    block_built d l K B L -> of_shape (signal_shape (bl_valued l) b (bl_size l) (bl_group l) (bl_channels l)) x ->
    apply L x = Ok y -> backward d D ls ws y dy gs -> block_gradients d l K B x dy dx dK dB ->
    backward d D (l :: ls) ((K, B) :: ws) x dx ((dK, dB) :: gs).

(** What the network returns. *)
Inductive forward (d : nat) : list block -> list (tensor A * tensor A) -> tensor A -> tensor A -> Prop :=
| forward_end x : forward d [] [] x x
| forward_layer l ls K B ws b L x y out :
    block_built d l K B L -> of_shape (signal_shape (bl_valued l) b (bl_size l) (bl_group l) (bl_channels l)) x ->
    apply L x = Ok y -> forward d ls ws y out -> forward d (l :: ls) ((K, B) :: ws) x out.

(** Training: [S] is the state of the optimiser, with the weights and anything else, and
    [update] what the optimiser does with the gradients.  An example is an input and the
    gradient of the loss (for the label of that input) as a function of the output. *)
Context (S : Type) (weights : S -> list (tensor A * tensor A)) (update : S -> list (tensor A * option (tensor A)) -> S).

Inductive training (d : nat) (net : list block) : S -> list (tensor A * (tensor A -> tensor A)) -> S -> Prop :=
| training_end s : training d net s [] s
| training_step s x D dx gs es s' :
    backward d D net (weights s) x dx gs -> training d net (update s gs) es s' -> training d net s ((x, D) :: es) s'.

(** The layers are for the group [G], with the whole group as subgroup, and commute with it
    (without their activation). *)
Record good_block (name : string) (G : group) (l : block) : Prop := {
  gb_layer : layer_for name G (bl_args l);
  gb_subgroup : ca_subgroup (bl_args l) = Some "";
  gb_option : exists opt, option_of (bl_args l) opt;
  gb_sizes : exists s dl, sizes (dimension_of name) (bl_args l) (bl_kernel l) s dl;
  gb_dims : List.length (bl_size l) = dimension_of name;
  gb_commutes : always_commute name G (bl_transposed l) (bl_valued l) (linear (bl_args l)) "" "" (bl_batch l) (bl_size l) (bl_group l) (bl_channels l) (bl_size l)
}.

(** The first layer may be for signals on the grid, all others are for signals on the group. *)
Definition network (name : string) (G : group) (ls : list block) : Prop :=
  Forall (good_block name G) ls /\ Forall (fun l => bl_valued l = true) (tl ls) /\ ls <> [].

Definition transformed (name : string) (G : group) (valued : bool) : tensor A -> result (tensor A) :=
  let d := dimension_of name in
  if valued then transforms_of_group_signal G d "" "" else transforms_of_grid_signal G d "".

(** The gradient of a loss that is the same for the output and the transformed output: the
    gradient for the transformed output is the transformed gradient. *)
Definition on_group (name : string) (y : tensor A) : Prop :=
  exists b M c, List.length M = dimension_of name /\ of_shape (signal_shape true b M (List.length (symmetries_of name)) c) y.
Definition equivariant_gradient (name : string) (G : group) (D : tensor A -> tensor A) : Prop :=
  forall y gy, on_group name y -> transformed name G true y = Ok gy ->
  exists gD, transformed name G true (D y) = Ok gD /\
    forall u, u < nth 0 (shape gy) 0 -> D (slice 0 u gy) = slice 0 u gD.

(** ** Proofs *)

Definition entrywise (f : A -> A) (x : tensor A) : tensor A := mkTensor (shape x) (map f (data x)).

Lemma entrywise_tab f s (g : list nat -> A) : entrywise f (tab s g) = tab s (fun i => f (g i)).
Proof. unfold entrywise, tab. cbn [shape data]. rewrite map_map. reflexivity. Qed.

Lemma entrywise_reordered f s phi (x : tensor A) : reorders s phi -> of_shape s x ->
  entrywise f (reordered s phi x) = reordered s phi (entrywise f x).
Proof.
  intros [R _] X. unfold reordered at 1. rewrite entrywise_tab. 
  assert (Q : entrywise f x = tab s (fun i => f (at_ x i))) by (rewrite (of_shape_eq s x X) at 1; apply entrywise_tab). rewrite Q. unfold reordered.
  apply tab_ext. intros i I. rewrite at_tab by (apply R; exact I). reflexivity.
Qed.

Lemma of_shape_entrywise f s (x : tensor A) : of_shape s x -> of_shape s (entrywise f x).
Proof. intros X. rewrite (of_shape_eq s x X), entrywise_tab. apply of_shape_tab. Qed.

(** One layer: what it returns for the transformed input. *)
Lemma layer_step name G l K B L b x y gx : good_block name G l ->
  let d := dimension_of name in
  block_built d l K B L -> of_shape (signal_shape (bl_valued l) b (bl_size l) (bl_group l) (bl_channels l)) x -> apply L x = Ok y ->
  transformed name G (bl_valued l) x = Ok gx ->
  on_group name y /\
  exists gy, transformed name G true y = Ok gy /\ nth 0 (shape gy) 0 = nth 0 (shape gx) 0 /\
    forall u, u < nth 0 (shape gx) 0 ->
      of_shape (signal_shape (bl_valued l) b (bl_size l) (bl_group l) (bl_channels l)) (slice 0 u gx) /\ apply L (slice 0 u gx) = Ok (slice 0 u gy).
Proof.
  destruct l as [tr a f' valued bs m g c k]. intros [LF HS [opt OP] [s [dl SZ]] Lm AC] d BB X AP R.
  unfold block_built in BB. cbn [bl_transposed bl_args bl_valued bl_batch bl_size bl_group bl_channels bl_kernel] in *.
  fold d in Lm, SZ. pose proof (linear_for _ _ _ LF) as LF'. set (input := static_signal_shape valued bs m g c) in *.
  destruct (linear_built name G a tr valued bs m g c (at_ K) (at_ B) L LF BB Lm) as [L1 B1]. fold d input in B1.
  assert (LAST : forall x', of_shape (signal_shape valued b m g c) x' -> apply L x' = (z <- apply L1 x' ;; Ok (entrywise (ca_activation a) z))).
  { intros x' [W SH]. exact (C87_the_activation_is_applied_last name G a "" opt tr valued bs m g c m k s dl (at_ K) (at_ B) L L1 x' b LF HS OP Lm Lm SZ BB B1 W SH). }
  pose proof (LAST x X) as E1. rewrite AP in E1. destruct (apply L1 x) as [z|] eqn:AZ; [|discriminate E1]. cbn [bind] in E1.
  assert (EO : forall u v : tensor A, Ok u = Ok v -> u = v) by congruence. apply EO in E1. subst y.
  destruct (runs_alike name G (linear a) "" opt tr valued bs m g c k s dl LF' HS OP Lm SZ (at_ K) (at_ B) L1 b m x z B1 Lm X AZ)
    as [M [na [LM [[act [SA NA]] RUN]]]]. cbn [linear ca_filters] in RUN. fold d input in RUN, LM. set (o := ca_filters a) in *.
  destruct (facts_of_all name G (linear a) "" opt tr valued bs m g c k s dl LF' HS OP Lm SZ (ex_intro _ (at_ K) (ex_intro _ (at_ B) (ex_intro _ L1 B1))))
    as [OK [_ [_ [_ [dom [_ [SD _]]]]]]]. fold d in OK.
  assert (SA' : sub_idx G (Some "") act) by (destruct tr; exact SA). clear SA.
  assert (ST : forall dom0, sub_idx G (Some "") dom0 -> forall u, In u act -> stable G u dom0).
  { intros dom0 S0 u Iu. rewrite (whole_dom G d _ _ dom0 OK S0). apply (stable_whole G d _ _ OK).
    destruct (sub_idx_facts _ _ _ _ OK _ _ SA') as [_ [BU _]]. apply BU. exact Iu. }
  assert (DI : domain_of G valued "" "" act dom g).
  { split; [exact SA'|]. intros V. destruct (SD V) as [S0 Q]. assert (S1 : sub_idx G (Some "") dom) by (destruct tr; exact S0).
    split; [exact S1|]. split; [exact Q|exact (ST dom S1)]. }
  assert (DO : domain_of G true "" "" act act na).
  { split; [exact SA'|]. intros _. split; [exact SA'|]. split; [exact NA|exact (ST act SA')]. }
  assert (Z : of_shape (signal_shape true b M na o) z). { destruct (RUN _ _ _ _ B1 X) as [z' [AP' Z]]. assert (z' = z) as -> by congruence. exact Z. }
  pose proof (of_shape_entrywise (ca_activation a) _ z Z) as Y.
  split.
  { exists b, M, o. split; [exact LM|]. assert (QN : na = List.length (symmetries_of name)) by (rewrite NA, (whole_dom G d _ _ act OK SA'); apply seq_length).
    rewrite <- QN. exact Y. }
  change (transforms G d valued "" "" x = Ok gx) in R.
  pose proof (transforms_fit G d _ _ OK valued "" "" act dom g b m c x gx DI Lm X R) as Fm.
  destruct (transforms_ok G d _ _ OK valued "" "" act dom g b m c x DI Fm X) as [gx' [R' [SGX SLX]]]. assert (gx' = gx) as -> by congruence.
  pose proof X as [W SH].
  assert (RC : (if valued then transforms_of_group_signal G d "" (if tr then "" else "") else transforms_of_grid_signal G d "") x = Ok gx).
  { unfold transforms in R. destruct valued, tr; exact R. }
  destruct (AC (at_ K) (at_ B) L1 b x B1 W SH gx z RC AZ) as [gz [GZ [SGZ SLZ]]].
  assert (GZ' : transforms G d true "" "" z = Ok gz) by (destruct tr; exact GZ).
  pose proof (transforms_fit G d _ _ OK true "" "" act act na b M o z gz DO LM Z GZ') as FM.
  destruct (transforms_ok G d _ _ OK true "" "" act act na b M o z DO FM Z) as [gz' [RZ [SGZ' SLZ']]]. assert (gz' = gz) as -> by congruence.
  destruct (transforms_ok G d _ _ OK true "" "" act act na b M o _ DO FM Y) as [gy [RY [SGY SLY]]].
  exists gy. split; [exact RY|]. rewrite SGX, SGY in *. cbn [nth] in *. split; [reflexivity|]. intros u Hu.
  assert (XU : of_shape (signal_shape valued b m g c) (slice 0 u gx)) by (rewrite (SLX u Hu); apply of_shape_reordered).
  split; [exact XU|]. rewrite (LAST _ XU), (SLZ u Hu). cbn [bind]. rewrite (SLZ' u Hu), (SLY u Hu).
  rewrite entrywise_reordered; [reflexivity| |exact Z]. exact (read_at_domain G d _ _ OK true "" "" act act na b M o u DO FM Hu).
Qed.

(** Gradients that exist are unique, and they exist. *)
Lemma block_exists one name G l K B L b x y dy : exact_arithmetic A -> (forall v, mul one v = v) -> good_block name G l ->
  let d := dimension_of name in
  block_built d l K B L -> of_shape (signal_shape (bl_valued l) b (bl_size l) (bl_group l) (bl_channels l)) x -> apply L x = Ok y ->
  of_shape (shape y) dy ->
  exists dx dK dB, block_gradients d l K B x dy dx dK dB /\
    forall dx' dK' dB', block_gradients d l K B x dy dx' dK' dB' -> dx' = dx /\ dK' = dK /\ dB' = dB.
Proof.
  intros EX ONE [LF HS [opt OP] [s [dl SZ]] Lm _] d BB [W SH] AP [WD SD].
  exact (C87_gradients_exist name G (bl_args l) "" opt (bl_transposed l) (bl_valued l) (bl_batch l) (bl_size l) (bl_group l) (bl_channels l) (bl_size l) (bl_kernel l) s dl
           (at_ K) (at_ B) L (bl_slope l) x y dy b one EX ONE LF HS OP Lm Lm SZ BB W SH AP WD SD).
Qed.

Lemma block_shape name G l K B L b x y dy dx dK dB : good_block name G l ->
  let d := dimension_of name in
  block_built d l K B L -> of_shape (signal_shape (bl_valued l) b (bl_size l) (bl_group l) (bl_channels l)) x -> apply L x = Ok y ->
  block_gradients d l K B x dy dx dK dB -> of_shape (shape y) dy.
Proof.
  intros [LF HS [opt OP] [s [dl SZ]] Lm _] d BB [W SH] AP [_ _ _ [L1 [z [B1 [AZ [DY _]]]]]].
  pose proof (C87_the_activation_is_applied_last name G (bl_args l) "" opt (bl_transposed l) (bl_valued l) (bl_batch l) (bl_size l) (bl_group l) (bl_channels l) (bl_size l)
                (bl_kernel l) s dl (at_ K) (at_ B) L L1 x b LF HS OP Lm Lm SZ BB B1 W SH) as E. rewrite AP, AZ in E. cbn [bind] in E.
  assert (EO : forall u v : tensor A, Ok u = Ok v -> u = v) by congruence. apply EO in E. rewrite E. exact DY.
Qed.

Lemma block_layer d l K B (L L' : conv_layer A) : block_built d l K B L -> block_built d l K B L' -> L' = L.
Proof. intros [P [I1 B1]] [P' [I2 B2]]. assert (P' = P) as -> by congruence. congruence. Qed.

(** Backpropagation has at most one result, and it has one if the network returns an output
    and the gradient of the loss has the shape of the output. *)
Theorem C88_one_result one name G net D ws x : exact_arithmetic A -> (forall v, mul one v = v) -> Forall (good_block name G) net ->
  let d := dimension_of name in
  (forall dx gs dx' gs', backward d D net ws x dx gs -> backward d D net ws x dx' gs' -> dx' = dx /\ gs' = gs) /\
  (forall y, forward d net ws x y -> of_shape (shape y) (D y) -> exists dx gs, backward d D net ws x dx gs).
Proof.
  intros EX ONE GB d. split.
  - intros dx gs dx' gs' BA. revert dx' gs'. induction BA as [x|l ls K B ws b L x y dy dx dK dB gs BB X AP BA IH GR]; intros dx' gs' BA'.
    + inversion BA'; subst. split; reflexivity.
    + apply Forall_cons_iff in GB as [GL GB]. inversion BA' as [|l1 ls1 K1 B1 ws1 b1 L1 x1 y1 dy1 dx1 dK1 dB1 gs1 BB1 X1 AP1 BA1 GR1]; subst. clear BA'.
      assert (L1 = L) as -> by (apply (block_layer _ _ _ _ _ _ BB BB1)). assert (y1 = y) as -> by congruence.
      destruct (IH GB _ _ BA1) as [-> ->].
      pose proof (block_shape name G l K B L b x y dy dx dK dB GL BB X AP GR) as DY.
      destruct (block_exists one name G l K B L b x y dy EX ONE GL BB X AP DY) as [dx0 [dK0 [dB0 [_ UN]]]].
      destruct (UN _ _ _ GR) as [-> [-> ->]]. destruct (UN _ _ _ GR1) as [-> [-> ->]]. split; reflexivity.
  - intros y FW SD. assert (Q : exists dx gs, backward d D net ws x dx gs /\ (of_shape (shape x) dx)).
    { induction FW as [x|l ls K B ws b L x y out BB X AP FW IH].
      - exists (D x), []. split; [constructor|exact SD].
      - apply Forall_cons_iff in GB as [GL GB]. destruct (IH GB SD) as [dy [gs [BA DY]]].
        destruct (block_exists one name G l K B L b x y dy EX ONE GL BB X AP DY) as [dx [dK [dB [GR _]]]].
        exists dx, ((dK, dB) :: gs). split; [exact (backward_layer d D l ls K B ws b L x y dy dx dK dB gs BB X AP BA GR)|].
        destruct GR as [GI _ _ _]. exact GI. }
    destruct Q as [dx [gs [BA _]]]. exists dx, gs. exact BA.
Qed.

(** A whole network. *)
Theorem C88_backpropagation name G net D ws x dx gs gx :
  exact_arithmetic A -> network name G net -> equivariant_gradient name G D ->
  let d := dimension_of name in
  let t := transformed name G (match net with l :: _ => bl_valued l | [] => true end) in
  backward d D net ws x dx gs -> t x = Ok gx ->
  exists gdx, t dx = Ok gdx /\ forall u, u < nth 0 (shape gx) 0 -> backward d D net ws (slice 0 u gx) (slice 0 u gdx) gs.
Proof.
  intros EX [GB [VA NE]] DE d.
  (* signals on the grid have layers to go through *)
  assert (GEN : forall ls ws x dx gs gx v, Forall (good_block name G) ls -> Forall (fun l => bl_valued l = true) (tl ls) ->
     (v = match ls with l :: _ => bl_valued l | [] => true end) -> (ls = [] -> on_group name x) ->
     backward d D ls ws x dx gs -> transformed name G v x = Ok gx ->
     exists gdx, transformed name G v dx = Ok gdx /\ forall u, u < nth 0 (shape gx) 0 -> backward d D ls ws (slice 0 u gx) (slice 0 u gdx) gs).
  { clear net GB VA NE ws x dx gs gx. induction ls as [|l ls IH]; intros ws x dx gs gx v GB VA EV WX BA R.
    - inversion BA; subst. destruct (DE x gx (WX eq_refl) R) as [gD [RD SL]]. exists gD. split; [exact RD|]. intros u Hu. rewrite <- (SL u Hu). constructor.
    - inversion BA as [|l' ls' K B ws' b L x' y dy dx' dK dB gs' BB X AP BA' GR]; subst. clear BA.
      apply Forall_cons_iff in GB as [GL GB]. cbn [tl] in VA.
      destruct (layer_step name G l K B L b x y gx GL BB X AP R) as [WY [gy [RY [SGY SL]]]].
      assert (V' : true = match ls with l0 :: _ => bl_valued l0 | [] => true end) by (destruct ls; [reflexivity|apply Forall_cons_iff in VA as [-> _]; reflexivity]).
      assert (VA' : Forall (fun l => bl_valued l = true) (tl ls)) by (destruct ls; [constructor|apply Forall_cons_iff in VA as [_ VA]; exact VA]).
      destruct (IH ws' y dy gs' gy true GB VA' V' (fun _ => WY) BA' RY) as [gdy [RDY SLY]].
      pose proof GL as [LF HS [opt OP] [s [dl SZ]] Lm AC].
      destruct X as [W SH].
      assert (RC : (if bl_valued l then transforms_of_group_signal G d "" (if bl_transposed l then "" else "") else transforms_of_grid_signal G d "") x = Ok gx)
        by (unfold transformed in R; destruct (bl_valued l), (bl_transposed l); exact R).
      destruct (C87_gradients_of_transformed_examples name G (bl_args l) "" "" opt (bl_transposed l) (bl_valued l) (bl_batch l) (bl_size l) (bl_group l) (bl_channels l) (bl_size l)
                  (bl_kernel l) s dl (at_ K) (at_ B) (bl_slope l) x dy dx dK dB b gx EX LF HS OP (or_introl eq_refl) Lm Lm SZ AC W SH GR RC)
        as [gdy' [gdx [RDY' [RDX [_ [_ SLG]]]]]].
      assert (gdy' = gdy) as ->. { unfold transformed in RDY. destruct (bl_transposed l); unfold d in *; congruence. }
      exists gdx. split. { unfold transformed. destruct (bl_valued l), (bl_transposed l); exact RDX. }
      intros u Hu. destruct (SL u Hu) as [XU AU].
      apply (backward_layer d D l ls K B ws' b L (slice 0 u gx) (slice 0 u gy) (slice 0 u gdy) (slice 0 u gdx) dK dB gs' BB XU AU);
        [apply SLY; lia|exact (SLG u Hu)]. }
  intros t BA R. apply (GEN net ws x dx gs gx _ GB VA eq_refl); [intros Q; contradiction|exact BA|exact R].
Qed.

(** ** Losses *)

Lemma transformed_on_group name G y gy : dict_get group_dict name = Ok G -> on_group name y -> transformed name G true y = Ok gy ->
  let d := dimension_of name in
  let E := symmetries_of name in
  let n := List.length E in
  exists b M c, let s := signal_shape true b M n c in
    of_shape s y /\ group_ok G d E (needs_equal_sizes name) /\ fit d (needs_equal_sizes name) M /\ shape gy = n :: s /\
    (forall u, u < n -> reorders s (read_at G d E true u M (seq 0 n)) /\ stable G u (seq 0 n)) /\
    forall x, of_shape s x -> exists gx, transformed name G true x = Ok gx /\ shape gx = n :: s /\
      forall u, u < n -> slice 0 u gx = reordered s (read_at G d E true u M (seq 0 n)) x.
Proof.
  intros DG [b [M [c [LM Y]]]] R d E n. apply lib_ok in DG as [_ OK]. fold d E in OK.
  exists b, M, c. intros s. pose proof (sub_idx_whole _ _ _ _ OK) as SW.
  assert (DO : domain_of G true "" "" (seq 0 n) (seq 0 n) n).
  { split; [exact SW|]. intros _. split; [exact SW|]. split; [symmetry; apply seq_length|]. intros u Iu. apply (stable_whole G d _ _ OK). apply in_seq in Iu. lia. }
  change (transforms G d true "" "" y = Ok gy) in R.
  pose proof (transforms_fit G d _ _ OK true "" "" _ _ n b M c y gy DO LM Y R) as F.
  assert (ALL : forall x, of_shape s x -> exists gx, transformed name G true x = Ok gx /\ shape gx = n :: s /\
      forall u, u < n -> slice 0 u gx = reordered s (read_at G d E true u M (seq 0 n)) x).
  { intros x X. destruct (transforms_ok G d _ _ OK true "" "" _ _ n b M c x DO F X) as [gx [RX [SG SL]]]. exists gx. split; [exact RX|].
    rewrite seq_length in SG, SL. split; [exact SG|]. intros u Hu. rewrite (SL u Hu). rewrite seq_nth by exact Hu. reflexivity. }
  split; [exact Y|]. split; [exact OK|]. split; [exact F|]. split.
  { destruct (ALL y Y) as [gx [RX [SG _]]]. assert (gx = gy) as -> by (unfold transformed in RX; unfold transforms in R; fold d in RX; congruence). exact SG. }
  split; [|exact ALL]. intros u Hu.
  pose proof (read_at_domain G d _ _ OK true "" "" _ _ n b M c u DO F ltac:(rewrite seq_length; exact Hu)) as RO. rewrite seq_nth in RO by exact Hu. cbn [Nat.add] in RO.
  split; [exact RO|]. apply (stable_whole G d _ _ OK). exact Hu.
Qed.

(** A sum of some function of the entries has such a gradient. *)
Theorem C88_entrywise_losses name G (f : A -> A) : dict_get group_dict name = Ok G -> equivariant_gradient name G (entrywise f).
Proof.
  intros DG y gy OG R. destruct (transformed_on_group name G y gy DG OG R) as [b [M [c [Y [_ [_ [SG [RO ALL]]]]]]]].
  destruct (ALL _ (of_shape_entrywise f _ y Y)) as [gD [RD [_ SD]]]. destruct (ALL y Y) as [gy' [R' [_ SY]]]. assert (gy' = gy) as -> by congruence.
  exists gD. split; [exact RD|]. rewrite SG. cbn [nth]. intros u Hu. rewrite (SD u Hu), (SY u Hu). apply entrywise_reordered; [apply RO; exact Hu|exact Y].
Qed.

(** So does any function of the sums over all pixels and elements (as after
    [GlobalGroupPooling] with 'average', up to a factor): its gradient only depends on these
    sums, the batch entry and the channel. *)
Definition sums (d : nat) (y : tensor A) : tensor A :=
  tab [nth 0 (shape y) 0; nth (d + 2) (shape y) 0] (fun i =>
    sum (map (fun ph => at_ y (nth 0 i 0 :: ph ++ [nth 1 i 0])) (indices (firstn (d + 1) (tl (shape y)))))).
Definition pooled_gradient (d : nat) (h : tensor A -> nat -> nat -> A) (y : tensor A) : tensor A :=
  tab (shape y) (fun i => h (sums d y) (nth 0 i 0) (nth (d + 2) i 0)).

Theorem C88_pooled_losses name G (h : tensor A -> nat -> nat -> A) : exact_arithmetic A -> dict_get group_dict name = Ok G ->
  equivariant_gradient name G (pooled_gradient (dimension_of name) h).
Proof.
  intros EX DG y gy OG R. set (d := dimension_of name). destruct (transformed_on_group name G y gy DG OG R) as [b [M [c [Y [OK [F [SG [RO ALL]]]]]]]].
  fold d in OK, F, RO, ALL. set (E := symmetries_of name) in *. set (n := List.length E) in *. set (s := signal_shape true b M n c) in *.
  pose proof F as [FF LM].
  assert (PG : of_shape s (pooled_gradient d h y)) by (destruct Y as [_ <-]; apply of_shape_tab).
  destruct (ALL _ PG) as [gD [RD [_ SD]]]. destruct (ALL y Y) as [gy' [R' [_ SY]]]. assert (gy' = gy) as -> by congruence.
  exists gD. split; [exact RD|]. rewrite SG. cbn [nth]. intros u Hu. rewrite (SD u Hu), (SY u Hu). destruct (RO u Hu) as [RU ST].
  set (psi := read_at G d E true u M (seq 0 n)) in *.
  assert (HEAD : forall bi p hh q, inb M p -> psi (bi :: p ++ [hh; q]) = bi :: pixel (nth u E []) M p ++ [turned G u (seq 0 n) hh; q]).
  { intros bi p hh q P. unfold psi, read_at. rewrite sig4_ix by (rewrite (inb_length _ _ P); exact LM). reflexivity. }
  assert (SHS : nth 0 s 0 = b /\ nth (d + 2) s 0 = c /\ firstn (d + 1) (tl s) = M ++ [n]).
  { unfold s, signal_shape. split; [reflexivity|]. split; [rewrite <- LM; apply (chan_ix2 _ b M n c []); reflexivity|]. cbn [tl].
    change [n; c] with ([n] ++ [c]). rewrite app_assoc. replace (d + 1) with (List.length (M ++ [n])) by (rewrite app_length; cbn [List.length]; lia).
    apply firstn_app_exact. reflexivity. }
  destruct SHS as [S0 [S2 S3]].
  assert (SU : sums d (reordered s psi y) = sums d y).
  { unfold sums. destruct (of_shape_reordered s psi y) as [_ ->]. destruct Y as [WY SHY]. rewrite SHY, S0, S2, S3.
    apply tab_ext. intros i I. apply inb2 in I as [bi [q [-> [BI Q]]]]. cbn [nth].
    set (f := fun ph => at_ y (bi :: ph ++ [q])). set (mv := fun ph => pixel (nth u E []) M (firstn d ph) ++ [turned G u (seq 0 n) (nth d ph 0)]).
    assert (PARTS : forall ph, inb (M ++ [n]) ph -> exists p hh, ph = p ++ [hh] /\ inb M p /\ hh < n /\ firstn d ph = p /\ nth d ph 0 = hh).
    { intros ph I. apply inb_app_split in I as [p [r [-> [P I]]]]. apply inb1 in I as [hh [-> Hh]]. exists p, hh. pose proof (inb_length _ _ P) as LP. rewrite LM in LP.
      split; [reflexivity|]. split; [exact P|]. split; [exact Hh|]. split; [apply firstn_app_exact; symmetry; exact LP|]. rewrite app_nth2 by lia. rewrite LP, Nat.sub_diag. reflexivity. }
    transitivity (sum (map (fun ph => f (mv ph)) (indices (M ++ [n])))).
    - apply sum_ext. intros ph I. apply In_indices in I. destruct (PARTS ph I) as [p [hh [-> [P [Hh [F1 F2]]]]]]. unfold f, mv. rewrite F1, F2.
      unfold reordered. rewrite <- !app_assoc. change ([hh] ++ [q]) with [hh; q].
      rewrite at_tab by (apply inb4; assumption). rewrite HEAD by exact P. reflexivity.
    - rewrite <- (map_map mv f). apply sum_permutation; [intros x1 x2 x3; rewrite !(ar_assoc EX); f_equal; apply (ar_comm EX)|]. apply Permutation_map.
      assert (LS : List.length (seq 0 n) = n) by apply seq_length.
      apply indices_injective.
      + intros ph I. destruct (PARTS ph I) as [p [hh [-> [P [Hh [F1 F2]]]]]]. unfold mv. rewrite F1, F2. apply inb_app; [apply (pixel_in G d E _ OK); assumption|].
        apply inb_cons. split; [|apply inb_nil]. pose proof (turned_lt G u (seq 0 n) hh ST) as T. rewrite LS in T. apply T. exact Hh.
      + intros ph ph' I I'. destruct (PARTS ph I) as [p [hh [-> [P [Hh [F1 F2]]]]]]. destruct (PARTS ph' I') as [p' [hh' [-> [P' [Hh' [F1' F2']]]]]].
        unfold mv. rewrite F1, F2, F1', F2'. intros EE. apply app_inj_tail in EE as [EP ET].
        apply (pixel_injective d) in EP; try assumption; [|apply (ok_sym _ _ _ _ OK); exact Hu|apply (fits_sym G d E _ OK); assumption]. subst p'.
        apply (turned_inj G d E _ OK) in ET; try assumption; [subst hh'; reflexivity|apply seq_NoDup|intros x Ix; apply in_seq in Ix; lia|lia|lia]. }
  unfold pooled_gradient at 1. rewrite SU. destruct (of_shape_reordered s psi y) as [_ ->].
  unfold reordered. apply tab_ext. intros i I. destruct RU as [RU _].
  unfold pooled_gradient. destruct Y as [_ SHY]. rewrite SHY. rewrite at_tab by (apply RU; exact I).
  unfold s, signal_shape in I. apply inb4_inv in I as [bi [p [hh [q [-> [BI [P [Hh Q]]]]]]]]. rewrite HEAD by exact P.
  pose proof (inb_length _ _ P) as LP. pose proof (inb_length _ _ (pixel_in G d E _ OK u M p Hu F P)) as LP'. rewrite LM in LP, LP'.
  rewrite (chan_ix2 d bi p hh q [] LP), (chan_ix2 d bi _ _ q [] LP'). reflexivity.
Qed.

(** Training with some examples replaced by transformed ones. *)
Definition same_up_to_transformation (t : tensor A -> result (tensor A)) (e e' : tensor A * (tensor A -> tensor A)) : Prop :=
  snd e' = snd e /\ exists gx u, t (fst e) = Ok gx /\ u < nth 0 (shape gx) 0 /\ fst e' = slice 0 u gx.

Theorem C88_transformed_examples_train_the_same_weights name G net s es es' s' :
  exact_arithmetic A -> network name G net -> Forall (fun e => equivariant_gradient name G (snd e)) es ->
  let d := dimension_of name in
  let t := transformed name G (match net with l :: _ => bl_valued l | [] => true end) in
  Forall2 (same_up_to_transformation t) es es' -> training d net s es s' -> training d net s es' s'.
Proof.
  intros EX NT DE d t F TR. revert s TR. induction F as [|e e' es es' [SD [gx [u [R [Hu SX]]]]] F IH]; intros s TR.
  - inversion TR; subst. constructor.
  - apply Forall_cons_iff in DE as [D1 DE]. inversion TR as [|s0 x D dx gs es0 s0' BA TR']; subst. cbn [fst snd] in *.
    destruct e' as [x' D']. cbn [fst snd] in *. subst x' D'.
    destruct (C88_backpropagation name G net D (weights s) x dx gs gx EX NT D1 BA R) as [gdx [_ BU]].
    apply (training_step d net s (slice 0 u gx) D (slice 0 u gdx) gs es' s' (BU u Hu)). apply IH; assumption.
Qed.

(** So the weights after training are the same. *)
Theorem C88_augmentation_changes_nothing one name G net s es es' s1 s2 :
  exact_arithmetic A -> (forall v, mul one v = v) -> network name G net -> Forall (fun e => equivariant_gradient name G (snd e)) es ->
  let d := dimension_of name in
  let t := transformed name G (match net with l :: _ => bl_valued l | [] => true end) in
  Forall2 (same_up_to_transformation t) es es' -> training d net s es s1 -> training d net s es' s2 -> s1 = s2.
Proof.
  intros EX ONE NT DE d t F T1 T2. pose proof (C88_transformed_examples_train_the_same_weights name G net s es es' s1 EX NT DE F T1) as T3. fold d in T3.
  destruct NT as [GB _]. clear F T1 es DE. revert s1 T3. induction T2 as [s|s x D dx gs es s' BA T2 IH]; intros s1 T3.
  - inversion T3; subst. reflexivity.
  - inversion T3 as [|s0 x0 D0 dx0 gs0 es0 s0' BA0 T0]; subst.
    destruct (C88_one_result one name G net D (weights s) x EX ONE GB) as [UN _]. destruct (UN _ _ _ _ BA BA0) as [-> ->]. apply IH. exact T0.
Qed.

(** ** Layers that qualify *)

(** The convolutions of C21, C22, C43 and C44 with the whole group as subgroup ... *)
Theorem C88_convolutions name G (l : block) opt s dl :
  exact_arithmetic A -> bl_transposed l = false ->
  let a := bl_args l in
  let d := dimension_of name in
  layer_for name G a -> ca_subgroup a = Some "" -> option_of a opt -> (ca_allow a = false \/ In opt ["SAME_EQUIV"; "VALID_EQUIV"]) ->
  List.length (bl_size l) = d -> sizes d a (bl_kernel l) s dl -> respects name s -> respects name dl ->
  (In opt ["SAME"; "SAME_EQUIV"] -> forall ax, ax < d -> Nat.Odd (nth ax (bl_kernel l) 0) \/ Nat.Odd (nth ax dl 0)) ->
  good_block name G l.
Proof.
  intros EX TR a d LF HS OP AL Lm SZ RS RD DF. split; try assumption; [exists opt; exact OP|exists s, dl; exact SZ|].
  rewrite TR. intros ki bi L b x B W SH.
  assert (ADD : add_commutes A) by (intros u v w; rewrite !(ar_assoc EX); f_equal; apply (ar_comm EX)).
  apply (layer_commutes name G (linear a) "" opt (bl_valued l) (bl_batch l) (bl_size l) (bl_channels l) (bl_group l) ki bi L (bl_kernel l) s dl (bl_size l) x b); try assumption.
  intros ax Hax. reflexivity.
Qed.

(** ... and the transposed convolutions of C27. *)
Theorem C88_transposed_convolutions name G (l : block) opt s :
  exact_arithmetic A -> bl_transposed l = true ->
  let a := bl_args l in
  let d := dimension_of name in
  layer_for name G a -> ca_subgroup a = Some "" -> option_of a opt ->
  List.length (bl_size l) = d -> sizes d a (bl_kernel l) s (repeat 1 d) -> respects name s -> regular_transposed d opt (bl_size l) (bl_kernel l) s ->
  good_block name G l.
Proof.
  intros EX TR a d LF HS OP Lm SZ RS RT. split; try assumption; [exists opt; exact OP|exists s, (repeat 1 d); exact SZ|].
  rewrite TR. intros ki bi L b x B W SH.
  assert (ADD : add_commutes A) by (intros u v w; rewrite !(ar_assoc EX); f_equal; apply (ar_comm EX)).
  destruct (C27_transposed_convolution_any_stride name G (linear a) "" "" opt (bl_batch l) (bl_size l) (bl_group l) (bl_channels l) ki bi L (bl_kernel l) s ADD
              (linear_for _ _ _ LF) HS OP Lm SZ RS RT) as [Q1 Q2].
  destruct (bl_valued l).
  - exact (Q2 B b x W SH).
  - exact (Q1 B b x W SH).
Qed.

End Training.
Arguments mkBlock {A} _ _ _ _ _ _ _ _ _.

Print Assumptions C88_one_result.
Print Assumptions C88_backpropagation.
Print Assumptions C88_transformed_examples_train_the_same_weights.
Print Assumptions C88_augmentation_changes_nothing.
Print Assumptions C88_entrywise_losses.
Print Assumptions C88_pooled_losses.
Print Assumptions C88_convolutions.
Print Assumptions C88_transposed_convolutions.

(** ** Examples *)

(** A network of two layers for P4 with [relu], for images of 3 by 3 pixels.  The loss is
    half the square of the sum of the outputs minus the label.  One step subtracts the
    gradients of the weights and biases, which are computed one entry at a time. *)
Definition values (l : list (option Z)) : list Z := map (fun v => match v with Some z => z | None => 0%Z end) l.
Definition first_input : sshape := static_signal_shape false None [3; 3] 0 1.
Definition second_input : sshape := static_signal_shape true None [3; 3] 4 1.
Definition flat_weights (s : list nat) (l : list Z) : list nat -> Z := at_ (mkTensor s l).
Definition run (a : conv_args Z) (input : sshape) (K B : list nat -> Z) (x : tensor Z) : result (tensor Z) :=
  L <- test_layer 2 false a input K B ;; apply L x.
Definition no_weights : list nat -> Z := fun _ => 0%Z.

Definition layer_gradients (a : conv_args Z) (input : sshape) (kshape : list nat) (K B : list nat -> Z) (x dy : tensor Z) : list Z * list Z * tensor Z :=
  match run (linear a) input K B x with
  | Ok z =>
      let dz := delta step z dy in
      (values (map (fun i => pairing_with dz (run (linear a) input (unit_at 1%Z i) no_weights x)) (indices kshape)),
       values (map (fun i => pairing_with dz (run (linear a) input no_weights (unit_at 1%Z i) x)) (indices [1])),
       mkTensor (shape x) (values (map (fun i => pairing_with dz (run (linear a) input K no_weights (tab (shape x) (unit_at 1%Z i)))) (indices (shape x)))))
  | Err _ => ([], [], mkTensor [] [])
  end.

Definition subtracted (v g : list Z) : list Z := map (fun p => Z.sub (fst p) (snd p)) (combine v g).

Definition of_sums (label : Z) : tensor Z -> tensor Z := pooled_gradient 2 (fun t b q => Z.sub (at_ t [b; q]) label).

Definition net_args (k : Z) : conv_args Z :=
  mkConvArgs (ByName "P4") (Some "") (One k) 1 None (Some (Some "same_equiv")) None "channels_last" true true (fun v => Z.max v 0).

Definition one_step (D : Z -> tensor Z -> tensor Z) (s : list Z * list Z * list Z * list Z) (example : tensor Z * Z) : list Z * list Z * list Z * list Z :=
  let '(k1, b1, k2, b2) := s in
  let '(x, label) := example in
  let K1 := flat_weights [3; 3; 1; 1] k1 in
  let B1 := flat_weights [1] b1 in
  let K2 := flat_weights [1; 1; 4; 1] k2 in
  let B2 := flat_weights [1] b2 in
  match (y1 <- run (net_args 3) first_input K1 B1 x ;; y2 <- run (net_args 1) second_input K2 B2 y1 ;; Ok (y1, y2)) with
  | Ok (y1, y2) =>
      let dy2 := D label y2 in
      let '(dk2, db2, dy1) := layer_gradients (net_args 1) second_input [1; 1; 4; 1] K2 B2 y1 dy2 in
      let '(dk1, db1, _) := layer_gradients (net_args 3) first_input [3; 3; 1; 1] K1 B1 x dy1 in
      (subtracted k1 dk1, subtracted b1 db1, subtracted k2 dk2, subtracted b2 db2)
  | Err _ => ([], [], [], [])
  end.

Definition initial_weights : list Z * list Z * list Z * list Z :=
  ([0; 1; 0; -1; 1; 0; 0; 0; 1]%Z, [0%Z], [1; 0; -1; 2]%Z, [0%Z]).
Definition image (v : nat) : tensor Z := tab [1; 3; 3; 1] (fun i => Z.of_nat ((v * nth 1 i 0 + nth 2 i 0 * nth 2 i 0) mod 3)).
Definition rotated_image (u v : nat) : tensor Z := rotated (transforms_of_grid_signal P4 2 "" (image v)) u.
Definition first_kernel (s : list Z * list Z * list Z * list Z) : list Z := let '(k1, _, _, _) := s in k1.

(** An image and the rotated image give the same weights. *)
Example C88_case :
  map (fun u => one_step of_sums initial_weights (rotated_image u 1, 40%Z)) [0; 1] =
  repeat ([-1840; -3955; -2300; -1013; -5151; -4784; -1288; -2852; -4047]%Z, [-4508]%Z, [-4875; -3864; -3405; -5334]%Z, [-2392]%Z) 2.
Proof. vm_compute. reflexivity. Qed.

(** They do not if the loss looks at one pixel of the output. *)
Definition one_pixel (label : Z) (y : tensor Z) : tensor Z :=
  tab (shape y) (fun i => if list_eqb Nat.eqb (firstn 3 i) [0; 0; 1] then Z.sub (at_ y i) label else 0%Z).
Example C88_other_losses :
  list_eqb Z.eqb (first_kernel (one_step one_pixel initial_weights (rotated_image 1 1, 40%Z)))
    (first_kernel (one_step one_pixel initial_weights (image 1, 40%Z))) = false.
Proof. vm_compute. reflexivity. Qed.

(** The network is one of those the theorems are about, and so is the loss. *)
Definition first_block : block (A := Z) := mkBlock false (net_args 3) step false None [3; 3] 0 1 [3; 3].
Definition second_block : block (A := Z) := mkBlock false (net_args 1) step true None [3; 3] 4 1 [1; 1].

Example C88_conditions : network "P4" P4 [first_block; second_block] /\ forall label, equivariant_gradient "P4" P4 (of_sums label).
Proof.
  assert (DG : dict_get group_dict "P4" = Ok P4) by (vm_compute; reflexivity).
  assert (LF : forall k, layer_for "P4" P4 (net_args k)) by (intros k; split; [exact DG|split; [left; reflexivity|reflexivity]]).
  assert (OP : forall k, option_of (net_args k) "SAME_EQUIV") by (intros k; exists "same_equiv"; split; reflexivity).
  assert (RE : respects "P4" [1; 1]) by (intros _ u v [<-|[<-|[]]] [<-|[<-|[]]]; reflexivity).
  assert (OD : forall ax, ax < dimension_of "P4" -> Nat.Odd (nth ax [1; 1] 0)).
  { intros ax Hax. change (dimension_of "P4") with 2 in Hax. destruct ax as [|[|]]; [exists 0; reflexivity|exists 0; reflexivity|lia]. }
  split.
  - split; [|split; [apply Forall_cons; [reflexivity|apply Forall_nil]|discriminate]].
    apply Forall_cons; [|apply Forall_cons; [|apply Forall_nil]].
    + apply (C88_convolutions "P4" P4 first_block "SAME_EQUIV" [1; 1] [1; 1] integers_exact eq_refl (LF _) eq_refl (OP _)); try exact RE.
      * right. left. reflexivity.
      * reflexivity.
      * split; [reflexivity|split; reflexivity].
      * intros _ ax Hax. right. exact (OD ax Hax).
    + apply (C88_convolutions "P4" P4 second_block "SAME_EQUIV" [1; 1] [1; 1] integers_exact eq_refl (LF _) eq_refl (OP _)); try exact RE.
      * right. left. reflexivity.
      * reflexivity.
      * split; [reflexivity|split; reflexivity].
      * intros _ ax Hax. right. exact (OD ax Hax).
  - intros label. exact (C88_pooled_losses "P4" P4 _ integers_exact DG).
Qed.
