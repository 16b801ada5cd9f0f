(** Saving and loading the vector indexes, and ExportIndex and ImportIndex of the store:
    /repo/pkg/index/hnsw.go:100-157, /repo/pkg/index/ivf.go:41-84,
    /repo/pkg/core/io.go:398-471.

    A file written with encoding/gob is the list of the values encoded one after the other.
    Decoding takes the next value and fails, leaving the target as it is, when there is none
    left (or it is cut short, which is the same here) or it has another type. That gob gives
    back the values it was given is taken from its documentation. Integers of a file that are
    negative where the index expects a count read as 0. The quantiser is not part of the file
    and not modelled here; [n_vec] stands for what the node holds. *)
From Coq Require Import String List NArith ZArith Bool.
From Verif Require Import Base HnswModel IvfModel.
Import ListNotations.

Local Notation vec := (list N).
Inductive gval :=
| GInt (z : Z)
| GBool (b : bool)
| GStr (s : string)
| GNode (id : string) (n : node vec)
| GVecs (l : list vec)
| GLists (l : list (list nat))
| GStrs (l : list string).
Definition gfile := list gval.

(** dec.Decode(&x) for an int, a bool, a string and so on. *)
Definition dec_int (f : gfile) : option (Z * gfile) := match f with GInt z :: r => Some (z, r) | _ => None end.
Definition dec_bool (f : gfile) : option (bool * gfile) := match f with GBool b :: r => Some (b, r) | _ => None end.
Definition dec_str (f : gfile) : option (string * gfile) := match f with GStr s :: r => Some (s, r) | _ => None end.
Definition dec_node (f : gfile) : option (string * node vec * gfile) := match f with GNode i n :: r => Some (i, n, r) | _ => None end.
Definition dec_vecs (f : gfile) : option (list vec * gfile) := match f with GVecs l :: r => Some (l, r) | _ => None end.
Definition dec_lists (f : gfile) : option (list (list nat) * gfile) := match f with GLists l :: r => Some (l, r) | _ => None end.
Definition dec_strs (f : gfile) : option (list string * gfile) := match f with GStrs l :: r => Some (l, r) | _ => None end.

(** HNSW.Save, hnsw.go:100-125: [ord] is the order of the map iteration. *)
Definition hnsw_save (ord : nodes vec -> nodes vec) (h : hnsw vec) : gfile :=
  [GInt (Z.of_nat (h_M h)); GInt (Z.of_nat (h_efc h)); GStr (h_entry h); GInt (Z.of_nat (length (h_nodes h)))] ++
  map (fun p => GNode (fst p) (snd p)) (ord (h_nodes h)).
(** h.Nodes[node.ID] = &node. *)
Definition put_node (ns : nodes vec) (i : string) (n : node vec) : nodes vec :=
  if mem i (ids_of ns) then upd ns i (fun _ => n) else ns ++ [(i, n)].
Fixpoint load_nodes (count : nat) (f : gfile) (ns : nodes vec) : nodes vec * bool :=
  match count with
  | O => (ns, true)
  | S c => match dec_node f with
           | None => (ns, false)
           | Some (i, n, r) => load_nodes c r (put_node ns i n)
           end
  end.
(** HNSW.Load, hnsw.go:128-157: the index afterwards, and whether Load succeeded. *)
Definition hnsw_load (h : hnsw vec) (f : gfile) : hnsw vec * bool :=
  match dec_int f with
  | None => (h, false)
  | Some (m, f1) =>
      let h1 := Hnsw (Z.to_nat m) (h_efc h) (h_nodes h) (h_entry h) in
      match dec_int f1 with
      | None => (h1, false)
      | Some (e, f2) =>
          let h2 := Hnsw (h_M h1) (Z.to_nat e) (h_nodes h1) (h_entry h1) in
          match dec_str f2 with
          | None => (h2, false)
          | Some (p, f3) =>
              let h3 := Hnsw (h_M h2) (h_efc h2) (h_nodes h2) p in
              match dec_int f3 with
              | None => (h3, false)
              | Some (c, f4) => let '(ns, ok) := load_nodes (Z.to_nat c) f4 [] in (Hnsw (h_M h3) (h_efc h3) ns (h_entry h3), ok)
              end
          end
      end
  end.

(** IVFIndex.Save, ivf.go:41-62. *)
Definition ivf_save (x : ivf) : gfile :=
  [GInt (Z.of_nat (i_nc x)); GInt (Z.of_nat (i_dim x)); GInt (i_nprobe x); GBool (i_trained x);
   GVecs (i_cents x); GLists (i_inv x); GStrs (i_ids x); GVecs (i_vecs x)].
(** Assignments to the fields. *)
Definition with_nc (x : ivf) v := {| i_nc := v; i_dim := i_dim x; i_cents := i_cents x; i_inv := i_inv x; i_vecs := i_vecs x; i_ids := i_ids x; i_trained := i_trained x; i_nprobe := i_nprobe x |}.
Definition with_dim (x : ivf) v := {| i_nc := i_nc x; i_dim := v; i_cents := i_cents x; i_inv := i_inv x; i_vecs := i_vecs x; i_ids := i_ids x; i_trained := i_trained x; i_nprobe := i_nprobe x |}.
Definition with_nprobe (x : ivf) v := {| i_nc := i_nc x; i_dim := i_dim x; i_cents := i_cents x; i_inv := i_inv x; i_vecs := i_vecs x; i_ids := i_ids x; i_trained := i_trained x; i_nprobe := v |}.
Definition with_trained (x : ivf) v := {| i_nc := i_nc x; i_dim := i_dim x; i_cents := i_cents x; i_inv := i_inv x; i_vecs := i_vecs x; i_ids := i_ids x; i_trained := v; i_nprobe := i_nprobe x |}.
Definition with_cents (x : ivf) v := {| i_nc := i_nc x; i_dim := i_dim x; i_cents := v; i_inv := i_inv x; i_vecs := i_vecs x; i_ids := i_ids x; i_trained := i_trained x; i_nprobe := i_nprobe x |}.
Definition with_inv (x : ivf) v := {| i_nc := i_nc x; i_dim := i_dim x; i_cents := i_cents x; i_inv := v; i_vecs := i_vecs x; i_ids := i_ids x; i_trained := i_trained x; i_nprobe := i_nprobe x |}.
Definition with_ids (x : ivf) v := {| i_nc := i_nc x; i_dim := i_dim x; i_cents := i_cents x; i_inv := i_inv x; i_vecs := i_vecs x; i_ids := v; i_trained := i_trained x; i_nprobe := i_nprobe x |}.
Definition with_vecs (x : ivf) v := {| i_nc := i_nc x; i_dim := i_dim x; i_cents := i_cents x; i_inv := i_inv x; i_vecs := v; i_ids := i_ids x; i_trained := i_trained x; i_nprobe := i_nprobe x |}.
(** One "if err := dec.Decode(&ivf.Field)": the rest runs only when it succeeds. *)
Definition field {T} (dec : gfile -> option (T * gfile)) (set : ivf -> T -> ivf) (k : ivf -> gfile -> ivf * bool) (x : ivf) (f : gfile) : ivf * bool :=
  match dec f with None => (x, false) | Some (v, r) => k (set x v) r end.
(** IVFIndex.Load, ivf.go:65-84. *)
Definition ivf_load (x : ivf) (f : gfile) : ivf * bool :=
  field dec_int (fun x z => with_nc x (Z.to_nat z)) (
  field dec_int (fun x z => with_dim x (Z.to_nat z)) (
  field dec_int with_nprobe (
  field dec_bool with_trained (
  field dec_vecs with_cents (
  field dec_lists with_inv (
  field dec_strs with_ids (
  field dec_vecs with_vecs (fun x _ => (x, true))))))))) x f.

(** The parts of SQLiteStore that the two calls use. *)
Record xstore := { x_closed : bool; x_enabled : bool; x_M : nat; x_efc : nat; x_dim : nat; x_nc : nat;
                   x_hnsw : option (hnsw vec); x_ivf : option ivf }.
(** ExportIndex, io.go:398-429: what the file holds afterwards (None when there is none).
    [creates] tells whether os.Create succeeds, [room] how many values can be written. *)
Definition export_index (ord : nodes vec -> nodes vec) (creates : bool) (room : option nat) (s : xstore) (file : option gfile) : option gfile * outcome unit :=
  if x_closed s then (file, Err EClosed)
  else if negb creates then (file, Err EOther)
  else
    let write (f : gfile) := match room with
                             | None => (Some f, Ok tt)
                             | Some n => if Nat.ltb n (length f) then (Some (firstn n f), Err EOther) else (Some f, Ok tt)
                             end in
    match x_hnsw s, x_ivf s with
    | Some h, _ => write (hnsw_save ord h)
    | None, Some x => write (ivf_save x)
    | None, None => (Some [], Err EOther)
    end.
Definition with_indexes (s : xstore) (h : option (hnsw vec)) (i : option ivf) : xstore :=
  {| x_closed := x_closed s; x_enabled := x_enabled s; x_M := x_M s; x_efc := x_efc s; x_dim := x_dim s; x_nc := x_nc s; x_hnsw := h; x_ivf := i |}.
(** ImportIndex, io.go:432-471. *)
Definition import_index (s : xstore) (file : option gfile) : xstore * outcome unit :=
  if x_closed s then (s, Err EClosed)
  else match file with
       | None => (s, Err EOther)
       | Some f =>
           if x_enabled s then
             let h0 := match x_hnsw s with Some h => h | None => new_hnsw (x_M s) (x_efc s) end in
             let '(h, ok) := hnsw_load h0 f in
             if ok then (with_indexes s (Some h) (x_ivf s), Ok tt)
             else
               let i0 := match x_ivf s with Some i => i | None => new_ivf (x_dim s) (x_nc s) end in
               let '(i, ok2) := ivf_load i0 f in
               (with_indexes s (Some h) (Some i), if ok2 then Ok tt else Err EOther)
           else (s, Err EOther)
       end.
