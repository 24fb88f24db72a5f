(** Which rasters can be represented, and what a file cut short by a crash contains. *)
From Coq Require Import ZArith List Lia Bool.
From Verif Require Import Base Res ArrModel ArrSpec CacheModel.
Open Scope Z_scope.

Definition is_int32 (z : Z) : Prop := - 2 ^ 31 <= z < 2 ^ 31.
Definition is_byte (z : Z) : Prop := 0 <= z < 256.

(** Every member holds a value of its C++ type; [k] = sizeof(T); the geotransform has been set. *)
Record representable (k : nat) (r : raster) : Prop := {
  rp_wf : well_formed (r_arr r);
  rp_k : (1 <= k)%nat;
  rp_x : is_int32 (r_xoff r);
  rp_y : is_int32 (r_yoff r);
  rp_n : 0 <= a_ndc (r_arr r) < 2 ^ 32;
  rp_nd : 0 <= a_nodata (r_arr r) < 256 ^ Z.of_nat k;
  rp_cells : Forall (fun c => 0 <= c < 256 ^ Z.of_nat k) (a_data (r_arr r));
  rp_geo : length (r_geo r) = 6%nat;
  rp_geo_d : Forall (fun g => 0 <= g < 256 ^ 8) (r_geo r);
  rp_proj : Forall is_byte (r_proj r);
  rp_proj_len : Z.of_nat (length (r_proj r)) < 2 ^ 63 }.
