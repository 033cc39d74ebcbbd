(** The dynamic values json.parse builds (std/json/json.n:905-908): null, bool, string, number
    kept as its text, [any] and {string:any}.  An object is the sequence of its entries in the
    order a `for` loop over the map (and serialize_map) visits them. *)
From Verif Require Import Base.

Inductive json :=
| JNull
| JBool (b : bool)
| JStr (s : list Z)
| JNum (token : list Z)
| JArr (l : list json)
| JObj (m : list (list Z * json)).
