(** * Space: distributed function spaces

    Model of [FunctionSpace::new], src/function.rs:106-237, as a program of one
    process, and of the accessors at src/function.rs:251-361. *)
From Verif Require Import Base Topology DofMap Process.

(** [FunctionSpace], src/function.rs:73-88 (grid and elements left out: they are
    stored unchanged). *)
Record space : Type := mkSpace {
  sp_dofmap : dofmap;                (** [cell_dofs], [entity_dofs], [local_size] *)
  sp_global_size : nat;
  sp_global_dofs : list nat;
  sp_ownership : list ownership
}.

(** State of the loop at src/function.rs:141-151. *)
Record number_state : Type := mkNum {
  nu_global : list nat;              (** [global_dof_numbers] *)
  nu_next : nat;                     (** [dof_n] *)
  nu_indices : list (list nat);      (** [ghost_indices] *)
  nu_dims : list (list nat);         (** [ghost_dims] *)
  nu_ents : list (list nat);         (** [ghost_entities] *)
  nu_dofs : list (list nat)          (** [ghost_entity_dofs] *)
}.

(** [v[p].push(x)]. src/function.rs:146-149. *)
Definition push_at (v : list (list nat)) (p x : nat) : res (list (list nat)) :=
  row <- vget v p ;; vset v p (row ++ [x]).

(** The body of the loop at src/function.rs:141-151. *)
Definition number_dof (rank : nat) (st : number_state) (io : nat * owner_entry) : res number_state :=
  let (i, o) := io in
  if ow_rank o =? rank then
    gl <- vset (nu_global st) i (nu_next st) ;;
    Ok (mkNum gl (S (nu_next st)) (nu_indices st) (nu_dims st) (nu_ents st) (nu_dofs st))
  else
    gi <- push_at (nu_indices st) (ow_rank o) i ;;
    gd <- push_at (nu_dims st) (ow_rank o) (ow_dim o) ;;
    ge <- push_at (nu_ents st) (ow_rank o) (ow_ent o) ;;
    gx <- push_at (nu_dofs st) (ow_rank o) (ow_dof o) ;;
    Ok (mkNum (nu_global st) (nu_next st) gi gd ge gx).

(** src/function.rs:128-132 and 140-151. *)
Definition number_dofs (rank size : nat) (dm : dofmap) (local_offset : nat) : res number_state :=
  foldM (number_dof rank) (enumerate (dm_owner dm))
    (mkNum (repeat 0 (dm_size dm)) local_offset
           (repeat [] size) (repeat [] size) (repeat [] size) (repeat [] size)).

(** src/function.rs:173-185. *)
Definition send_requests {A : Type} (rank size : nat) (st : number_state) (k : proc A) : proc A :=
  fold_right (fun p k =>
    if p =? rank then k
    else
      local (vget (nu_dims st) p) (fun d =>
      local (vget (nu_ents st) p) (fun e =>
      local (vget (nu_dofs st) p) (fun x =>
        Send p (MVec d) (Send p (MVec e) (Send p (MVec x) k)))))) k (seq 0 size).

(** [entity_dofs[*c][*e][*d]], src/function.rs:196. *)
Definition entity_dof (dm : dofmap) (c e d : nat) : res nat :=
  row <- vget (dm_ents dm) c ;; l <- vget row e ;; vget l d.

(** src/function.rs:187-207. *)
Definition serve_requests {A : Type} (rank size : nat) (dm : dofmap) (st : number_state) (k : proc A) : proc A :=
  fold_right (fun p k =>
    if p =? rank then k
    else
      recv_vec p (fun gdims => recv_vec p (fun gentities => recv_vec p (fun gentity_dofs =>
      local (mapM (fun x => entity_dof dm (fst x) (fst (snd x)) (snd (snd x)))
                  (combine gdims (combine gentities gentity_dofs))) (fun local_ghost_dofs =>
      local (mapM (vget (nu_global st)) local_ghost_dofs) (fun global_ghost_dofs =>
        Send p (MVec local_ghost_dofs) (Send p (MVec global_ghost_dofs) k))))))) k (seq 0 size).

(** The body of the loop at src/function.rs:216-222. *)
Definition store_ghost (p : nat) (st : list nat * list ownership) (x : nat * (nat * nat))
  : res (list nat * list ownership) :=
  let '(i, (l, g)) := x in
  gl <- vset (fst st) i g ;;
  ow <- vset (snd st) i (Ghost p l) ;;
  Ok (gl, ow).

(** src/function.rs:211-224, for the processes [ps] that are left. *)
Fixpoint receive_ghosts {A : Type} (rank : nat) (st : number_state) (ps : list nat)
    (gl : list nat) (ow : list ownership) (k : list nat -> list ownership -> proc A) : proc A :=
  match ps with
  | [] => k gl ow
  | p :: t =>
      if p =? rank then receive_ghosts rank st t gl ow k
      else
        recv_vec p (fun local_ghost_dofs => recv_vec p (fun global_ghost_dofs =>
        local (vget (nu_indices st) p) (fun indices =>
        local (foldM (store_ghost p) (combine indices (combine local_ghost_dofs global_ghost_dofs)) (gl, ow))
          (fun r => receive_ghosts rank st t (fst r) (snd r) k))))
  end.

(** src/function.rs:152-237, after the numbering of the owned DOFs. *)
Definition exchange (rank size : nat) (dm : dofmap) (st : number_state) : proc space :=
  let dof_n := nu_next st in
  let ghosts (global_size : nat) : proc space :=
    send_requests rank size st
      (serve_requests rank size dm st
        (receive_ghosts rank st (seq 0 size) (nu_global st) (repeat Owned (dm_size dm))
          (fun gl ow => Ret (mkSpace dm global_size gl ow)))) in
  let size_agreement : proc space :=
    if rank =? size - 1 then
      fold_right (fun p k => Send p (MNum dof_n) k) (ghosts dof_n) (seq 0 rank)
    else recv_num (size - 1) ghosts in
  if rank <? size - 1 then Send (rank + 1) (MNum dof_n) size_agreement else size_agreement.

(** [FunctionSpace::new], src/function.rs:114-237, for a DOF map made by
    [assign_dofs] (line 119-120). *)
Definition fs_new (rank size : nat) (dm : dofmap) : proc space :=
  if rank =? 0 then
    local (number_dofs rank size dm 0) (exchange rank size dm)
  else
    recv_num (rank - 1) (fun local_offset =>
      local (number_dofs rank size dm local_offset) (exchange rank size dm)).

(** [FunctionSpaceTrait] accessors, src/function.rs:261-270, 352-357. *)
Definition is_serial (size : nat) : bool := size =? 1.
(** src/function.rs:264-266. *)
Definition local_size (sp : space) : nat := dm_size (sp_dofmap sp).
(** src/function.rs:268-270. *)
Definition global_size (sp : space) : nat := sp_global_size sp.
(** src/function.rs:352-354. *)
Definition global_dof_index (sp : space) (i : nat) : res nat := vget (sp_global_dofs sp) i.
(** src/function.rs:355-357. *)
Definition ownership_of (sp : space) (i : nat) : res ownership := vget (sp_ownership sp) i.
