(** Model of /repo/groco/groups/space_groups.py and of the dictionaries of
    /repo/groco/groups/__init__.py. *)
From Verif Require Export Wallpaper OhTable.

(** space_groups.py:7-9; [itertools.product] varies its last argument fastest *)
Definition Oh_flip_axes : list (list nat) :=
  [[]; [1; 2]; [0; 2]; [0; 1]; [2]; [1]; [0]; [0; 1; 2]].
Definition Oh_permutation_tuples : list (list nat) :=
  [[0; 1; 2]; [1; 2; 0]; [2; 0; 1]; [0; 2; 1]; [2; 1; 0]; [1; 0; 2]].
Definition Oh_parameters : list (list nat * list nat) :=
  list_prod Oh_permutation_tuples Oh_flip_axes.

Section Oh_action.
Context {A : Type} {ZA : Zero A}.

(** space_groups.py:22-24, the loop over the axes to flip *)
Fixpoint flip_all (t : tensor A) (axes : list nat) : result (tensor A) :=
  match axes with
  | [] => Ok t
  | f :: axes' => t <- flip t (Z.of_nat f) ;; flip_all t axes'
  end.

(** space_groups.py:12-30.  Only [spatial_axes[0]] is used.  With a negative
    offset the axis tuple gets more than [ndim] entries, so the transposition
    raises; the model returns that error directly. *)
Definition Oh_action (signal : tensor A) (spatial_axes : list Z) (nga : Z) : result (tensor A) :=
  match spatial_axes with
  | [] => Err IndexError
  | z :: _ =>
      guard (0 <=? z)%Z else BackendError ;;
      let offset := Z.to_nat z in
      let prefix := seq 0 offset in
      let suffix := seq (offset + 3) (rank signal - (offset + 3)) in
      ts <- mapM (fun pf =>
                    let perm := prefix ++ map (fun p => p + offset) (fst pf) ++ suffix in
                    let flips := map (fun f => f + offset) (snd pf) in
                    t <- flip_all signal flips ;;
                    t <- transpose t perm ;;
                    expand_dims t nga) Oh_parameters ;;
      concatenate ts nga
  end.
End Oh_action.

Local Open Scope string_scope.

(** space_groups.py:33-2487 (subgroup 2438-2468, cosets 2469-2485) *)
Definition Oh_init : result group := group_init "Oh" 48
  None
  (Some Oh_composition)
  (Some [("Oh", seq 0 48);
         ("O", [0; 1; 2; 3; 8; 9; 10; 11; 16; 17; 18; 19;
                28; 29; 30; 31; 36; 37; 38; 39; 44; 45; 46; 47]);
         ("D4h", [0; 1; 2; 3; 4; 5; 6; 7; 40; 41; 42; 43; 44; 45; 46; 47]);
         ("D4", [0; 1; 2; 3; 44; 45; 46; 47])])
  (Some [("Oh", [0]);
         ("O", [0; 4]);
         ("D4h", [0; 24; 32]);
         ("D4", [0; 24; 32; 4; 28; 36])])
  (Some (@Oh_action)) None.

(** space_groups.py:2489-2491: derived from the parent [Oh] *)
Definition derived (name : string) (order : nat) : result group :=
  p <- Oh_init ;; group_init name order None None None None None (Some p).
Definition O_init : result group := derived "O" 24.
Definition D4h_init : result group := derived "D4h" 16.
Definition D4_init : result group := derived "D4" 8.

(** wallpaper_groups.py:191-199, space_groups.py:2494, groups/__init__.py:5:
    the eleven groups in [group_dict] with the constructor calls that make them. *)
Definition inits : list (string * result group) :=
  [("P1", P1_init); ("P2", P2_init); ("PMw", PMw_init); ("PMh", PMh_init);
   ("P2MM", P2MM_init); ("P4", P4_init); ("P4M", P4M_init);
   ("Oh", Oh_init); ("O", O_init); ("D4h", D4h_init); ("D4", D4_init)].

(** The group built by a constructor call (the trivial group with an empty name
    if the call raises; [library_builds] shows that none of them does). *)
Definition built (r : result group) : group :=
  match r with
  | Ok G => G
  | Err _ => mkGroup "" 0 (mkTensor [] []) [] [] [] (fun A ZA _ _ _ => Err KeyError)
  end.

Definition P1 := built P1_init.
Definition P2 := built P2_init.
Definition PMw := built PMw_init.
Definition PMh := built PMh_init.
Definition P2MM := built P2MM_init.
Definition P4 := built P4_init.
Definition P4M := built P4M_init.
Definition Oh := built Oh_init.
Definition O3 := built O_init.
Definition D4h := built D4h_init.
Definition D4 := built D4_init.

Definition wallpaper_group_dict : list (string * group) :=
  [("P1", P1); ("P2", P2); ("PMw", PMw); ("PMh", PMh); ("P2MM", P2MM); ("P4", P4); ("P4M", P4M)].
Definition space_group_dict : list (string * group) :=
  [("Oh", Oh); ("O", O3); ("D4h", D4h); ("D4", D4)].
Definition group_dict : list (string * group) := (wallpaper_group_dict ++ space_group_dict)%list.
