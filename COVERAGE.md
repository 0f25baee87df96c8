# Which definition models which function

Generated by tools/coverage.py from the citations in the model files: every non-test function of /repo/src.

### node.rs

| lines | function | model |
|---|---|---|
| 22 | `default` (impl<T> Default for Data<T>) | Data::None is `None` of `n_dat` |
| 26-31 | `is_none` (impl<T> Data<T>) | test of `n_dat` |
| 33-51 | `take` (impl<T> Data<T>) | `NodeModel.take_data` |
| 53-55 | `replace` (impl<T> Data<T>) | assignment of `n_dat` |
| 57-69 | `into_inner` (impl<T> Data<T>) | `NodeModel.into_inner` |
| 73-79 | `as_ref` (impl<T> AsRef<T> for Data<T>) | `NodeModel.dat_ref` |
| 83-89 | `as_mut` (impl<T> AsMut<T> for Data<T>) | `NodeModel.dat_map` |
| 105-107 | `default` (impl<T> Default for Node<T>) | `Machine.node_default` |
| 112 | `data` (impl<T> Node<T>) | `CursorModel.observe`, `CursorModel.ref_call`, `NodeModel.dat_ref` |
| 115 | `data_mut` (impl<T> Node<T>) | `DropRunModel.mbody`, `NodeModel.dat_map` |
| 129 | `has_no_child` (impl<T> Node<T>) | `NodeModel.has_no_child` |
| 145 | `degree` (impl<T> Node<T>) | `CursorModel.observe`, `CursorModel.ref_call`, `NodeModel.degree` |
| 157-163 | `node_count` (impl<T> Node<T>) | `CursorModel.observe`, `CursorModel.ref_call`, `NodeModel.node_count` |
| 178-190 | `parent` (impl<T> Node<T>) | `NodeModel.parent_loop` |
| 204-221 | `insert_prev_sib` (impl<T> Node<T>) | `NodeModel.insert_prev_sib`, `PanicModel.has_parent`, `RcPanicModel.may_move` |
| 234-251 | `insert_next_sib` (impl<T> Node<T>) | `NodeModel.insert_next_sib`, `PanicModel.has_parent`, `RcPanicModel.may_move` |
| 263-294 | `detach` (impl<T> Node<T>) | `MisuseModel.detach_drop_data`, `NodeModel.detach`, `PanicModel.has_parent`, `RcPanicModel.may_move` |
| 313-318 | `iter` (impl<T> Node<T>) | `CursorModel.kstep`, `IterModel.iter_run`, `NodeModel.iter`, `RcNodeModel.descend`, `RcNodeModel.front_val` |
| 333-338 | `iter_mut` (impl<T> Node<T>) | `ApiModel.iter_mut`, `CursorModel.kstep`, `IterModel.iter_run`, `MisuseModel.swap_nodes`, `NodeModel.iter` |
| 342-344 | `front` (impl<T> Node<T>) | `NodeModel.front`, `RcNodeModel.front_val` |
| 348-350 | `front_mut` (impl<T> Node<T>) | `ApiModel.front_mut` |
| 354-356 | `back` (impl<T> Node<T>) | `NodeModel.front`, `RcNodeModel.front_val` |
| 360-362 | `back_mut` (impl<T> Node<T>) | `ApiModel.back_mut` |
| 377-387 | `push_front` (impl<T> Node<T>) | `NodeModel.push_front` |
| 402-412 | `push_back` (impl<T> Node<T>) | `NodeModel.push_back` |
| 428-448 | `pop_front` (impl<T> Node<T>) | `NodeModel.pop_front` |
| 464-484 | `pop_back` (impl<T> Node<T>) | `NodeModel.pop_back` |
| 501-514 | `prepend` (impl<T> Node<T>) | `NodeModel.prepend_body` |
| 531-544 | `append` (impl<T> Node<T>) | `NodeModel.append_body` |
| 546-548 | `non_null` (impl<T> Node<T>) | `ApiModel.tree_root` |
| 550-552 | `set_head` (impl<T> Node<T>) | assignment of `n_head` |
| 554-556 | `set_tail` (impl<T> Node<T>) | assignment of `n_tail` |
| 558-560 | `set_up` (impl<T> Node<T>) | assignment of `n_up` |
| 562-565 | `connect_next` (impl<T> Node<T>) | `NodeModel.connect_next` |
| 567-577 | `inc_sizes` (impl<T> Node<T>) | `NodeModel.inc_up` |
| 579-589 | `dec_sizes` (impl<T> Node<T>) | `NodeModel.dec_up` |
| 591-597 | `is_forest` (impl<T> Node<T>) | `NodeModel.is_forest_dat` |

### tree.rs

| lines | function | model |
|---|---|---|
| 29-34 | `new` (impl<T> Tree<T>) | `NodeModel.tree_new` |
| 47-55 | `from_tuple` (impl<T> Tree<T>) | `TupleModel.tuple`, `TupleModel.tree_from_tuple` |
| 57-61 | `into_data` (impl<T> Tree<T>) | `NodeModel.into_data` |
| 63-66 | `from_node` (impl<T> Tree<T>) | `NodeModel.tree_from_node` |
| 69 | `root` (impl<T> Tree<T>) | `ApiModel.tree_root` |
| 72 | `root_mut` (impl<T> Tree<T>) | `ApiModel.tree_root` |
| 74 | `root_mut_` (impl<T> Tree<T>) | `ApiModel.tree_root` |
| 87 | `iter_mut` (impl<T> Tree<T>) | `ApiModel.tree_iter_mut` |
| 101-103 | `push_front` (impl<T> Tree<T>) | `ApiModel.tree_push` |
| 117-119 | `push_back` (impl<T> Tree<T>) | `ApiModel.tree_push` |
| 137-139 | `prepend` (impl<T> Tree<T>) | `ApiModel.tree_concat` |
| 157-159 | `append` (impl<T> Tree<T>) | `ApiModel.tree_concat` |
| 175-183 | `abandon` (impl<T> Tree<T>) | `MoveSpec.creates`, `NodeModel.abandon` |
| 202 | `pop_front` (impl<T> Tree<T>) | `ApiModel.tree_pop` |
| 221 | `pop_back` (impl<T> Tree<T>) | `ApiModel.tree_pop` |
| 225 | `front_mut` (impl<T> Tree<T>) | `ApiModel.tree_end_mut` |
| 229 | `back_mut` (impl<T> Tree<T>) | `ApiModel.tree_end_mut` |
| 233-235 | `clone` (impl<T:Clone> Clone for Tree<T>) | `ApiModel.tree_clone`, `BfsModel.deep_clone` |
| 241 | `deref` (impl<T> Deref for Tree<T>) | `ApiModel.tree_root` |
| 245-248 | `drop` (impl<T> Drop for Tree<T>) | `DropRunModel.drop_loop_h`, `NodeModel.drop_loop`, `OwnModel.od_loop`, `PanicModel.pdrop_loop`, `RcPanicModel.unw_var`, `StackModel.drop_kids` … |

### forest.rs

| lines | function | model |
|---|---|---|
| 27 | `root_` (impl<T> Forest<T>) | `ApiModel.forest_root` |
| 28 | `root_mut_` (impl<T> Forest<T>) | `ApiModel.forest_root` |
| 31-33 | `new` (impl<T> Forest<T>) | `NodeModel.forest_new` |
| 46-54 | `from_tuple` (impl<T> Forest<T>) | `TupleModel.tuple`, `TupleModel.forest_from_tuple` |
| 56-58 | `from_node` (impl<T> Forest<T>) | the address of the forest |
| 60-64 | `set_up` (impl<T> Forest<T>) | `NodeModel.set_ups` |
| 66-73 | `clear` (impl<T> Forest<T>) | `NodeModel.forest_clear` |
| 86 | `has_no_child` (impl<T> Forest<T>) | `ApiModel.forest_has_no_child` |
| 97 | `degree` (impl<T> Forest<T>) | `ApiModel.forest_has_no_child` |
| 108 | `node_count` (impl<T> Forest<T>) | `ApiModel.forest_has_no_child` |
| 126 | `iter` (impl<T> Forest<T>) | `ApiModel.forest_has_no_child` |
| 142 | `iter_mut` (impl<T> Forest<T>) | `ApiModel.forest_iter_mut` |
| 146-148 | `front` (impl<T> Forest<T>) | `ApiModel.forest_end` |
| 152-154 | `front_mut` (impl<T> Forest<T>) | `ApiModel.forest_end_mut` |
| 156-158 | `back` (impl<T> Forest<T>) | `ApiModel.forest_end` |
| 162-164 | `back_mut` (impl<T> Forest<T>) | `ApiModel.forest_end_mut` |
| 178-180 | `push_front` (impl<T> Forest<T>) | `ApiModel.forest_push` |
| 194-196 | `push_back` (impl<T> Forest<T>) | `ApiModel.forest_push` |
| 213-215 | `pop_front` (impl<T> Forest<T>) | `ApiModel.forest_pop` |
| 232-234 | `pop_back` (impl<T> Forest<T>) | `ApiModel.forest_pop` |
| 251-253 | `prepend` (impl<T> Forest<T>) | `ApiModel.forest_concat` |
| 270-272 | `append` (impl<T> Forest<T>) | `ApiModel.forest_concat` |
| 275 | `default` (impl<T> Default for Forest<T> { fn default() -> Self { Forest::new() }) | `NodeModel.forest_new` |
| 278-281 | `drop` (impl<T> Drop for Forest<T>) | `DropRunModel.drop_loop_h`, `NodeModel.drop_loop`, `OwnModel.od_loop`, `PanicModel.pdrop_loop`, `RcPanicModel.unw_var`, `StackModel.drop_kids` … |
| 285-287 | `clone` (impl<T:Clone> Clone for Forest<T>) | `ApiModel.forest_clone`, `BfsModel.deep_clone` |

### heap.rs

| lines | function | model |
|---|---|---|
| 7-30 | `make_node` () | `Machine.ptr`, `NodeModel.own` |
| 32-46 | `drop_node` () | `DropRunModel.drop_loop_h`, `NodeModel.drop_node`, `OwnModel.od_loop`, `PanicModel.pdrop_node`, `ThreadModel.node_events` |

### node_vec.rs

| lines | function | model |
|---|---|---|
| 16-23 | `new_raw_non_null` (impl<T> NodeVec<T>) | `BfsModel.vec_slots`, `Machine.ptr`, `NodeModel.dat_ref` |
| 25-29 | `non_null` (impl<T> NodeVec<T>) | `BfsModel.vec_slots`, `NodeModel.dat_ref` |
| 31-35 | `non_null_node` (impl<T> NodeVec<T>) | `BfsModel.vec_slots`, `BfsModel.slot`, `NodeModel.dat_ref` |
| 37 | `node` (impl<T> NodeVec<T>) | `BfsModel.vec_slots`, `NodeModel.dat_ref` |
| 38 | `node_mut` (impl<T> NodeVec<T>) | `BfsModel.vec_slots`, `NodeModel.dat_ref` |
| 40-42 | `make_piled_node` (impl<T> NodeVec<T>) | `BfsModel.vec_slots`, `BfsModel.make_piled_node`, `NodeModel.dat_ref` |
| 44-54 | `make_node` (impl<T> NodeVec<T>) | `BfsModel.vec_slots`, `BfsModel.vec_make_node`, `NodeModel.dat_ref` |
| 56-65 | `append_child` (impl<T> NodeVec<T>) | `BfsModel.vec_slots`, `BfsModel.append_child`, `NodeModel.dat_ref` |
| 67-122 | `construct_tree` (impl<T> NodeVec<T>) | `TupleModel.tuple`, `TupleModel.offsets_from`, `TupleModel.bst`, `TupleModel.on_branch`, `TupleModel.tree_visit`, `TupleModel.construct_tree` |
| 124-169 | `construct_forest` (impl<T> NodeVec<T>) | `TupleModel.tuple`, `TupleModel.offsets_from`, `TupleModel.bst`, `TupleModel.on_branch`, `TupleModel.forest_visit`, `TupleModel.construct_forest` |
| 171-179 | `decr_ref` (impl<T> NodeVec<T>) | `NodeModel.dat_ref`, `NodeModel.decr_ref`, `ThreadModel.ev` |
| 183-185 | `drop` (impl<T> Drop for NodeVec<T>) | `NodeModel.dat_ref`, `NodeModel.decr_ref` |

### size.rs

| lines | function | model |
|---|---|---|
| 15 | `add` (impl Add for Size) | `SizeModel.size_add` |
| 19-21 | `add_assign` (impl AddAssign for Size) | `SizeModel.size_add_assign` |
| 26 | `sub` (impl Sub for Size) | `SizeModel.size_sub` |
| 30-32 | `sub_assign` (impl SubAssign for Size) | `SizeModel.size_sub_assign` |

### iter.rs

| lines | function | model |
|---|---|---|
| 13-15 | `new` (impl<T> UncountedRawIter<T>) | `NodeModel.citer` |
| 21-23 | `clone` (impl<T> Clone for UncountedRawIter<T>) | `NodeModel.citer` |
| 29-35 | `next` (impl<T> Iterator for UncountedRawIter<T>) | `NodeModel.citer`, `NodeModel.ci_next` |
| 45-50 | `new` (impl<T> CountedRawIter<T>) | `NodeModel.citer` |
| 52-54 | `once` (impl<T> CountedRawIter<T>) | `NodeModel.citer`, `NodeModel.ci_once` |
| 60-62 | `clone` (impl<T> Clone for CountedRawIter<T>) | `NodeModel.citer` |
| 68-75 | `next` (impl<T> Iterator for CountedRawIter<T>) | `IterModel.iter_trace`, `NodeModel.citer`, `NodeModel.ci_next` |
| 77-79 | `size_hint` (impl<T> Iterator for CountedRawIter<T>) | `IterModel.iter_trace`, `NodeModel.citer`, `NodeModel.ci_size_hint` |
| 96-98 | `new` (impl<'a,T:'a> Iter<'a,T>) | constructor of `NodeModel.citer` |
| 100-102 | `once` (impl<'a,T:'a> Iter<'a,T>) | `NodeModel.ci_once` |
| 108-110 | `next` (impl<'a,T:'a> Iterator for Iter<'a,T>) | `CursorModel.kstep`, `IterModel.iter_trace` |
| 112 | `size_hint` (impl<'a,T:'a> Iterator for Iter<'a,T>) | `CursorModel.kstep`, `IterModel.iter_trace` |
| 132-134 | `new` (impl<'a,T:'a> IterMut<'a,T>) | `ApiModel.iter_mut` |
| 136-138 | `once` (impl<'a,T:'a> IterMut<'a,T>) | `NodeModel.ci_once` |
| 144-146 | `next` (impl<'a,T:'a> Iterator for IterMut<'a,T>) | `ApiModel.write_loop`, `ClientModel.each_act_c`, `CursorModel.kstep`, `IterModel.iter_trace` |
| 148 | `size_hint` (impl<'a,T:'a> Iterator for IterMut<'a,T>) | `ApiModel.write_loop`, `ClientModel.each_act_c`, `CursorModel.kstep`, `IterModel.iter_trace` |

### into_iter.rs

| lines | function | model |
|---|---|---|
| 16-18 | `next` (impl<T> Iterator for IntoIter<T>) | `CursorModel.kstep`, `NodeModel.into_iter_next` |
| 20-23 | `size_hint` (impl<T> Iterator for IntoIter<T>) | `CursorModel.kstep` |
| 29-31 | `drop` (impl<T> Drop for IntoIter<T>) | `CursorModel.kstep`, `PanicModel.pdrain` |
| 38-42 | `into_iter` (impl<T> IntoIterator for Tree<T>) | `CursorModel.kstep`, `NodeModel.tree_into_iter` |
| 49 | `into_iter` (impl<T> IntoIterator for Forest<T>) | `CursorModel.kstep` |
| 56-58 | `into_iter` (impl<'a, T:'a> IntoIterator for &'a Node<T>) | `IterModel.once_run` |
| 65-67 | `into_iter` (impl<'a, T:'a> IntoIterator for Pin<&'a mut Node<T>>) | `IterModel.once_run` |

### iter_rc.rs

| lines | function | model |
|---|---|---|
| 21-23 | `next` (impl<T> Iterator for IterRc<T>) | `RcModel.rc_iter_next` |
| 25 | `size_hint` (impl<T> Iterator for IterRc<T>) | `NodeModel.ci_size_hint` |
| 29-34 | `new` (impl<T> IterRc<T>) | `RcModel.rc_iter` |
| 38-40 | `clone` (impl<T> Clone for IterRc<T>) | `RcModel.rc_iter_clone` |

### bfs.rs

| lines | function | model |
|---|---|---|
| 23-27 | `from` (impl<Item,Iter> BfsTree<Splitted<Iter>>) | `SplitModel.gsp_from` |
| 31 | `wrap` (impl<Iter> BfsTree<Iter>) | `WrapModel.bt_wrap` |
| 47-55 | `map` (impl<Iter> BfsTree<Iter>) | `BfsModel.map_next`, `CallModel.call_next`, `PanicModel.pmap_next` |
| 67-71 | `from` (impl<Item,Iter> BfsForest<Splitted<Iter>>) | `SplitModel.gsp_from` |
| 75 | `wrap` (impl<Iter> BfsForest<Iter>) | `WrapModel.bf_wrap` |
| 91-99 | `map` (impl<Iter> BfsForest<Iter>) | `BfsModel.map_next`, `CallModel.call_next`, `PanicModel.pmap_next` |
| 112-117 | `iter` (impl<T,Iter> Bfs<Iter>) | `WrapModel.any_iter` |
| 120-125 | `iter_and_size` (impl<T,Iter> Bfs<Iter>) | `WrapModel.any_iter_and_size` |
| 129-134 | `tree_iter` (impl<T,Iter> Bfs<Iter>) | `WrapModel.any_tree_iter` |
| 138-143 | `forest_iter` (impl<T,Iter> Bfs<Iter>) | `WrapModel.any_forest_iter` |
| 151-168 | `split` (impl<T,Iter> Bfs<Iter>) | `BfsModel.sp_next_node`, `BfsModel.isp_next`, `CursorModel.ccur`, `SplitModel.source`, `SplitModel.gsp_from` |
| 164-168 | `from` (impl<Treelike,Item,Iter> From<Treelike> for Splitted<Iter>) | `BfsModel.sp_next_node`, `BfsModel.isp_next`, `SplitModel.gsp_from` |
| 177-194 | `next` (impl<T,Item,Iter> Iterator for Splitted<Iter>) | `BfsModel.sp_next_node`, `BfsModel.isp_next`, `CursorModel.kstep`, `SplitModel.gsp_next` |

### bfs_impls.rs

| lines | function | model |
|---|---|---|
| 21-31 | `deep_clone` (impl<T> Node<T>) | `BfsModel.deep_clone`, `CallModel.call_next`, `PanicModel.pmap_next`, `RcClonePanicModel.rc_pdeep_clone` |
| 44-54 | `deep_clone_forest` (impl<T> Node<T>) | `BfsModel.deep_clone`, `CallModel.call_next`, `PanicModel.pmap_next` |
| 69 | `bfs_children` (impl<T> Node<T>) | `BfsModel.bfs_children`, `CursorModel.kstep`, `WrapModel.node_bfs` |
| 85-88 | `bfs_children_mut` (impl<T> Node<T>) | `BfsModel.bfs_children`, `CursorModel.kstep` |
| 103-105 | `bfs` (impl<T> Node<T>) | `BfsModel.bfs`, `CursorModel.kstep`, `WrapModel.node_bfs` |
| 121-124 | `bfs_mut` (impl<T> Node<T>) | `BfsModel.bfs`, `CursorModel.kstep` |
| 131-133 | `split` (impl<'a, T:'a> Split for &'a Node<T>) | `BfsModel.sp_next_node` |
| 140-148 | `split` (impl<'a, T:'a> Split for Pin<&'a mut Node<T>>) | `BfsModel.sp_next_node`, `CursorModel.ccur`, `CursorModel.kstep` |
| 165 | `bfs` (impl<T> Forest<T>) | `ApiModel.forest_bfs`, `BfsModel.bfs_children`, `CursorModel.kstep` |
| 180-183 | `bfs_mut` (impl<T> Forest<T>) | `ApiModel.forest_bfs`, `BfsModel.bfs_children`, `CursorModel.kstep` |
| 208-211 | `into_bfs` (impl<T> Forest<T>) | `BfsModel.tree_into_bfs`, `CursorModel.kstep` |
| 228 | `bfs_children_mut` (impl<T> Tree<T>) | `ApiModel.tree_bfs_mut` |
| 243 | `bfs_mut` (impl<T> Tree<T>) | `ApiModel.tree_bfs_mut` |
| 265-268 | `into_bfs` (impl<T> Tree<T>) | `BfsModel.tree_into_bfs`, `CursorModel.kstep` |
| 274-305 | `from` (impl<T,Iter> From<BfsTree<Iter>> for Tree<T>) | `BfsModel.skip_full`, `CallModel.from_bfs_loop_st`, `PanicModel.pfrom_loop`, `PanicModel.ptree_from_bfs`, `SplitModel.tree_from_source` |
| 312-317 | `split` (impl<T> Split for Tree<T>) | `BfsModel.split_tree` |
| 323-354 | `from` (impl<T,Iter> From<BfsForest<Iter>> for Forest<T>) | `BfsModel.skip_full`, `CallModel.from_bfs_loop_st`, `PanicModel.pfrom_loop`, `PanicModel.pforest_from_bfs`, `SplitModel.tree_from_source` |

### walk.rs

| lines | function | model |
|---|---|---|
| 17-23 | `node` (impl<'a, T:'a> Visit<'a,T>) | projection of a visit |
| 37 | `this` (impl<T> Nodes<T>) | constructor `WN` |
| 40 | `sibs` (impl<T> Nodes<T>) | constructor `WN` |
| 59-63 | `reset` (impl<T> Walk<T>) | `WalkModel.w_reset` |
| 65-78 | `init_visit` (impl<T> Walk<T>) | `WalkModel.enter_kind`, `WalkModel.w_init_visit` |
| 80-85 | `on_node` (impl<T> Walk<T>) | `WalkModel.w_on_node` |
| 87-92 | `on_forest` (impl<T> Walk<T>) | `WalkModel.w_on_forest` |
| 94-103 | `revisit` (impl<T> Walk<T>) | `WalkModel.w_revisit` |
| 106-117 | `get` (impl<T> Walk<T>) | `WalkModel.w_get` |
| 120-171 | `forward` (impl<T> Walk<T>) | `WalkModel.enter_kind`, `WalkModel.w_forward_loop` |
| 176-179 | `next` (impl<T> Walk<T>) | `WalkModel.w_next` |
| 182-194 | `to_parent` (impl<T> Walk<T>) | `WalkModel.w_to_parent` |
| 197-203 | `get_parent` (impl<T> Walk<T>) | `WalkModel.w_get_parent` |
| 207-226 | `to_sib` (impl<T> Walk<T>) | `WalkModel.enter_kind`, `WalkModel.sib_loop`, `WalkModel.w_to_sib` |
| 230-249 | `to_child` (impl<T> Walk<T>) | `WalkModel.enter_kind`, `WalkModel.w_to_child` |
| 253-255 | `default` (impl<T> Default for Walk<T>) | `WalkModel.walk_default` |
| 275 | `get` (impl<T> TreeWalk<T>) | `WalkModel.w_step` |
| 310 | `forward` (impl<T> TreeWalk<T>) | `WalkModel.w_step` |
| 329 | `next` (impl<T> TreeWalk<T>) | `WalkModel.w_step` |
| 344 | `to_parent` (impl<T> TreeWalk<T>) | `WalkModel.w_step` |
| 360 | `get_parent` (impl<T> TreeWalk<T>) | `WalkModel.w_step` |
| 375 | `to_child` (impl<T> TreeWalk<T>) | `WalkModel.w_step` |
| 390 | `to_sib` (impl<T> TreeWalk<T>) | `WalkModel.w_step` |
| 436 | `revisit` (impl<T> TreeWalk<T>) | `WalkModel.w_step` |
| 440-444 | `from` (impl<T> From<Tree<T>> for TreeWalk<T>) | `CursorModel.kstep`, `WalkModel.walk_from` |
| 448-450 | `from` (impl<T> From<TreeWalk<T>> for Tree<T>) | `CursorModel.kstep`, `WalkModel.twalk_into` |
| 474 | `get` (impl<T> ForestWalk<T>) | `WalkModel.w_step` |
| 506 | `forward` (impl<T> ForestWalk<T>) | `WalkModel.w_step` |
| 523 | `next` (impl<T> ForestWalk<T>) | `WalkModel.w_step` |
| 538 | `to_parent` (impl<T> ForestWalk<T>) | `WalkModel.w_step` |
| 554 | `get_parent` (impl<T> ForestWalk<T>) | `WalkModel.w_step` |
| 569 | `to_child` (impl<T> ForestWalk<T>) | `WalkModel.w_step` |
| 584 | `to_sib` (impl<T> ForestWalk<T>) | `WalkModel.w_step` |
| 622 | `revisit` (impl<T> ForestWalk<T>) | `WalkModel.w_step` |
| 626-632 | `from` (impl<T> From<Forest<T>> for ForestWalk<T>) | `CursorModel.kstep`, `WalkModel.walk_from` |
| 636-638 | `from` (impl<T> From<ForestWalk<T>> for Forest<T>) | `CursorModel.kstep`, `WalkModel.twalk_into` |

### rc.rs

| lines | function | model |
|---|---|---|
| 14 | `new` (impl<T> Shared<T>) | `BfsModel.vec_slots`, `Machine.mem` |
| 20 | `deref` (impl<T> Deref for Shared<T>) | `BfsModel.vec_slots`, `Machine.mem` |
| 24-38 | `incr` (impl<T> Deref for Shared<T>) | `NodeModel.decr_ref`, `RcModel.cnt_incr`, `RcModel.vec_incr` |
| 25-38 | `decr` (impl<T> Deref for Shared<T>) | `NodeModel.decr_ref`, `RcModel.cnt_incr`, `RcModel.vec_incr` |
| 29-38 | `incr` (impl RefCount for Cell<usize>) | `NodeModel.decr_ref`, `RcModel.cnt_incr`, `RcModel.vec_incr` |
| 40-48 | `decr` (impl RefCount for Cell<usize>) | `NodeModel.decr_ref`, `RcModel.cnt_decr`, `ThreadModel.ev` |
| 64-68 | `from` (impl<T> From<Tree<T>> for RcNode<T>) | `RcModel.rc_from` |
| 73-91 | `rc` (impl<T> Node<T>) | `RcModel.rc` |
| 94-107 | `into_rc` (impl<T> Node<T>) | `RcModel.into_rc` |
| 111-122 | `clone` (impl<T> Clone for RcNode<T>) | `RcModel.rc_clone` |
| 126-152 | `drop` (impl<T> Drop for RcNode<T>) | `RcDropPanicModel.pd_loop`, `RcModel.rc_drop_loop`, `RcOwnModel.rd_loop`, `RcPanicModel.unw_self`, `RcReentModel.drop_q`, `RcReentModel.pops_q` … |
| 167 | `is_root` (impl<T> RcNode<T>) | `RcModel.rc_is_root` |
| 170 | `data` (impl<T> RcNode<T>) | `RcModel.rc_data` |
| 173 | `data_mut` (impl<T> RcNode<T>) | `RcModel.rc_modify` |
| 176 | `node` (impl<T> RcNode<T>) | `RcNodeModel.rc_node` |
| 179 | `node_mut` (impl<T> RcNode<T>) | `RcNodeModel.rc_node_mut` |
| 181-194 | `node_borrow` (impl<T> RcNode<T>) | `RcModel.is_none_dat`, `RcPanicModel.may_borrow` |
| 196-209 | `node_borrow_mut` (impl<T> RcNode<T>) | `RcModel.is_none_dat`, `RcPanicModel.may_borrow` |
| 222 | `has_no_child` (impl<T> RcNode<T>) | `RcModel.rc_has_no_child` |
| 234 | `degree` (impl<T> RcNode<T>) | `RcModel.rc_has_no_child` |
| 246 | `node_count` (impl<T> RcNode<T>) | `RcModel.rc_has_no_child` |
| 259 | `front` (impl<T> RcNode<T>) | `RcModel.rc_end` |
| 272 | `back` (impl<T> RcNode<T>) | `RcModel.rc_end` |
| 287 | `parent` (impl<T> RcNode<T>) | `RcModel.rc_parent` |
| 302 | `push_front` (impl<T> RcNode<T>) | `RcModel.rc_push` |
| 317 | `push_back` (impl<T> RcNode<T>) | `RcModel.rc_push` |
| 334-336 | `pop_front` (impl<T> RcNode<T>) | `RcModel.rc_drop_loop`, `RcModel.rc_pop` |
| 353 | `pop_back` (impl<T> RcNode<T>) | `RcModel.rc_pop` |
| 367 | `prepend` (impl<T> RcNode<T>) | `RcModel.rc_concat` |
| 381 | `append` (impl<T> RcNode<T>) | `RcModel.rc_concat` |
| 395-397 | `insert_prev_sib` (impl<T> RcNode<T>) | `RcModel.rc_insert`, `RcPanicModel.may_move` |
| 411-413 | `insert_next_sib` (impl<T> RcNode<T>) | `RcModel.rc_insert`, `RcPanicModel.may_move` |
| 425-427 | `detach` (impl<T> RcNode<T>) | `RcModel.rc_detach`, `RcPanicModel.may_move` |
| 445-452 | `iter_rc` (impl<T> RcNode<T>) | `RcModel.rc_iter` |
| 455-460 | `downgrade` (impl<T> RcNode<T>) | a weak handle is the address: `RcModel` 187 |
| 481-493 | `into_tree` (impl<T> RcNode<T>) | `RcModel.rc_into_tree`, `RcPanicModel.may_into_tree` |
| 508 | `deep_clone` (impl<T:Clone> RcNode<T>) | `RcClonePanicModel.rc_pdeep_clone`, `RcModel.rc_deep_clone` |
| 512-516 | `extend` (impl<T> Extend<Tree<T>> for RcNode<T>) | `RcExtItModel.extend_it`, `RcExtModel.rc_extend` |
| 538-552 | `upgrade` (impl<T> WeakNode<T>) | `RcModel.weak_upgrade` |
| 556-564 | `drop` (impl<T> Drop for WeakNode<T>) | `RcModel.weak_drop` |

### tuple.rs

| lines | function | model |
|---|---|---|
| 18-33 | `descendants` () | `TupleModel.tuple`, `TupleModel.tt_desc`, `TupleModel.tt_descendants`, `TupleModel.tt_height`, `TupleModel.tt_preorder` |
| 19-33 | `height` () | `TupleModel.tuple`, `TupleModel.tt_desc`, `TupleModel.tt_descendants`, `TupleModel.tt_height`, `TupleModel.tt_preorder` |
| 20-33 | `preorder` () | `TupleModel.tuple`, `TupleModel.tt_desc`, `TupleModel.tt_descendants`, `TupleModel.tt_height`, `TupleModel.tt_preorder` |
| 21-33 | `preorder_with_size_hint` () | `TupleModel.tuple`, `TupleModel.tt_desc`, `TupleModel.tt_descendants`, `TupleModel.tt_height`, `TupleModel.tt_preorder` |
| 22-33 | `postorder` () | `TupleModel.tuple`, `TupleModel.tt_desc`, `TupleModel.tt_descendants`, `TupleModel.tt_height`, `TupleModel.tt_preorder` |
| 23-33 | `postorder_with_size_hint` () | `TupleModel.tuple`, `TupleModel.tt_desc`, `TupleModel.tt_descendants`, `TupleModel.tt_height`, `TupleModel.tt_preorder` |
| 28 | `descendants` (impl<T> TupleTree<T,()> for T) | `TupleModel.tt_descendants` |
| 29 | `height` (impl<T> TupleTree<T,()> for T) | `TupleModel.tt_height` |
| 31-33 | `preorder` (impl<T> TupleTree<T,()> for T) | `TupleModel.tt_preorder` |
| 35-37 | `preorder_with_size_hint` (impl<T> TupleTree<T,()> for T) | `TupleModel.tt_preorder_hint` |
| 39-41 | `postorder` (impl<T> TupleTree<T,()> for T) | `TupleModel.tt_postorder` |
| 43-45 | `postorder_with_size_hint` (impl<T> TupleTree<T,()> for T) | `TupleModel.tt_postorder_hint` |
| 58-64 | `descendants` (impl<T$(,$name,$shape)*> TupleTree<T,((),$($shape),*)> for (T,$($name,) | `TupleModel.tt_descendants` |
| 66-68 | `height` (impl<T$(,$name,$shape)*> TupleTree<T,((),$($shape),*)> for (T,$($name,) | `TupleModel.tt_height` |
| 70-78 | `preorder` (impl<T$(,$name,$shape)*> TupleTree<T,((),$($shape),*)> for (T,$($name,) | `TupleModel.tt_preorder` |
| 80-89 | `preorder_with_size_hint` (impl<T$(,$name,$shape)*> TupleTree<T,((),$($shape),*)> for (T,$($name,) | `TupleModel.tt_preorder_hint` |
| 91-99 | `postorder` (impl<T$(,$name,$shape)*> TupleTree<T,((),$($shape),*)> for (T,$($name,) | `TupleModel.tt_postorder` |
| 101-110 | `postorder_with_size_hint` (impl<T$(,$name,$shape)*> TupleTree<T,((),$($shape),*)> for (T,$($name,) | `TupleModel.tt_postorder_hint` |
| 118-164 | `descendants` (impl<T$(,$name,$shape)*> TupleTree<T,((),$($shape),*)> for (T,$($name,) | `TupleModel.tuple`, `TupleModel.tf_size`, `TupleModel.tf_descendants`, `TupleModel.tf_height`, `TupleModel.tf_preorder` |
| 119-164 | `height` (impl<T$(,$name,$shape)*> TupleTree<T,((),$($shape),*)> for (T,$($name,) | `TupleModel.tuple`, `TupleModel.tf_size`, `TupleModel.tf_descendants`, `TupleModel.tf_height`, `TupleModel.tf_preorder` |
| 120-164 | `preorder` (impl<T$(,$name,$shape)*> TupleTree<T,((),$($shape),*)> for (T,$($name,) | `TupleModel.tuple`, `TupleModel.tf_size`, `TupleModel.tf_descendants`, `TupleModel.tf_height`, `TupleModel.tf_preorder` |
| 121-164 | `preorder_with_size_hint` (impl<T$(,$name,$shape)*> TupleTree<T,((),$($shape),*)> for (T,$($name,) | `TupleModel.tuple`, `TupleModel.tf_size`, `TupleModel.tf_descendants`, `TupleModel.tf_height`, `TupleModel.tf_preorder` |
| 122-164 | `postorder` (impl<T$(,$name,$shape)*> TupleTree<T,((),$($shape),*)> for (T,$($name,) | `TupleModel.tuple`, `TupleModel.tf_size`, `TupleModel.tf_descendants`, `TupleModel.tf_height`, `TupleModel.tf_preorder` |
| 123-164 | `postorder_with_size_hint` (impl<T$(,$name,$shape)*> TupleTree<T,((),$($shape),*)> for (T,$($name,) | `TupleModel.tuple`, `TupleModel.tf_size`, `TupleModel.tf_descendants`, `TupleModel.tf_height`, `TupleModel.tf_preorder` |
| 136-142 | `descendants` (impl<T,$($name,$shape),*> TupleForest<T,((),$($shape,)*)> for ($($name) | `TupleModel.tf_descendants` |
| 144-146 | `height` (impl<T,$($name,$shape),*> TupleForest<T,((),$($shape,)*)> for ($($name) | `TupleModel.tf_height` |
| 148-150 | `preorder` (impl<T,$($name,$shape),*> TupleForest<T,((),$($shape,)*)> for ($($name) | `TupleModel.tf_preorder` |
| 152-154 | `preorder_with_size_hint` (impl<T,$($name,$shape),*> TupleForest<T,((),$($shape,)*)> for ($($name) | `TupleModel.tf_preorder` |
| 156-158 | `postorder` (impl<T,$($name,$shape),*> TupleForest<T,((),$($shape,)*)> for ($($name) | `TupleModel.tf_preorder` |
| 160-162 | `postorder_with_size_hint` (impl<T,$($name,$shape),*> TupleForest<T,((),$($shape,)*)> for ($($name) | `TupleModel.tf_preorder` |

### notation.rs

| lines | function | model |
|---|---|---|
| 17-21 | `neg` (impl<T> crate::rust::Neg for $tree<T>) | `NotationModel.neg_t` |
| 28-32 | `neg` (impl<'a,T:Clone> crate::rust::Neg for &'a $tree<T>) | `NotationModel.neg_rt` |
| 39-44 | `sub` (impl<T> crate::rust::Sub<Self> for $tree<T>) | `NotationModel.sub_t_t` |
| 51-56 | `sub` (impl<'a,T:Clone> crate::rust::Sub<&'a $tree<T>> for $tree<T>) | `NotationModel.sub_t_rt` |
| 63-68 | `sub` (impl<'a,T:Clone> crate::rust::Sub<$tree<T>> for &'a $tree<T>) | `NotationModel.sub_rt_t` |
| 75-80 | `sub` (impl<'a,T:Clone> crate::rust::Sub<Self> for &'a $tree<T>) | `NotationModel.sub_rt_rt` |
| 87-90 | `div` (impl<T> crate::rust::Div<$forest<T>> for $tree<T>) | `NotationModel.div_t_f` |
| 97-100 | `div` (impl<'a,T:Clone> crate::rust::Div<&'a $forest<T>> for $tree<T>) | `NotationModel.div_t_rf` |
| 107-111 | `div` (impl<'a,T:Clone> crate::rust::Div<$forest<T>> for &'a $tree<T>) | `NotationModel.div_rt_f` |
| 118-122 | `div` (impl<'a,T:Clone> crate::rust::Div<&'a $forest<T>> for &'a $tree<T>) | `NotationModel.div_rt_rf` |
| 129-132 | `div` (impl<T> crate::rust::Div<$tree<T>> for $tree<T>) | `NotationModel.div_t_t` |
| 139-142 | `div` (impl<'a,T:Clone> crate::rust::Div<&'a $tree<T>> for $tree<T>) | `NotationModel.div_t_rt` |
| 149-153 | `div` (impl<'a,T:Clone> crate::rust::Div<$tree<T>> for &'a $tree<T>) | `NotationModel.div_rt_t` |
| 160-164 | `div` (impl<'a,T:Clone> crate::rust::Div<Self> for &'a $tree<T>) | `NotationModel.div_rt_rt` |
| 171-173 | `div` (impl<T> crate::rust::Div<()> for $tree<T>) | `NotationModel.unit_t` |
| 180-182 | `div` (impl<'a,T:Clone> crate::rust::Div<()> for &'a $tree<T>) | `NotationModel.unit_rt` |
| 189-192 | `sub` (impl<T> crate::rust::Sub<$tree<T>> for $forest<T>) | `NotationModel.sub_f_t` |
| 199-202 | `sub` (impl<'a,T:Clone> crate::rust::Sub<&'a $tree<T>> for $forest<T>) | `NotationModel.sub_f_rt` |
| 209-213 | `sub` (impl<'a,T:Clone> crate::rust::Sub<$tree<T>> for &'a $forest<T>) | `NotationModel.sub_rf_t` |
| 220-224 | `sub` (impl<'a,'b,T:Clone> crate::rust::Sub<&'b $tree<T>> for &'a $forest<T>) | `NotationModel.sub_rf_rt` |
| 231-234 | `sub` (impl<T> crate::rust::Sub<$forest<T>> for $forest<T>) | `NotationModel.sub_f_f` |
| 241-244 | `sub` (impl<'a,T:Clone> crate::rust::Sub<&'a $forest<T>> for $forest<T>) | `NotationModel.sub_f_rf` |
| 251-254 | `sub` (impl<'a,T:Clone> crate::rust::Sub<$forest<T>> for &'a $forest<T>) | `NotationModel.sub_rf_f` |
| 261-265 | `sub` (impl<'a,'b,T:Clone> crate::rust::Sub<&'b $forest<T>> for &'a $forest<T) | `NotationModel.sub_rf_rf` |

### macros.rs

| lines | function | model |
|---|---|---|
| 6 | `fmt` (impl<T:Debug> Debug for $ty<T>) | `DebugModel.node_dbg_` |
| 10 | `fmt` (impl<T:Display> Display for $ty<T>) | forwards to the node |
| 20-31 | `fmt` (impl<T:Debug> Debug for $ty<T>) | `DebugModel.forest_dbg` |
| 35-45 | `fmt` (impl<T:Display> Display for $ty<T>) | `CmpModel.forest_fmt` |
| 53 | `eq` (impl<T:PartialEq> PartialEq for $ty<T>) | `CmpModel.forest_eq` |
| 54 | `ne` (impl<T:PartialEq> PartialEq for $ty<T>) | `CmpModel.forest_eq` |
| 60 | `partial_cmp` (impl<T:PartialOrd> PartialOrd for $ty<T>) | `CmpModel.forest_pcmp` |
| 64 | `cmp` (impl<T:Ord> Ord for $ty<T>) | `CmpModel.forest_cmp` |
| 74 | `hash` (impl<T:Hash> Hash for $ty<T>) | forwards to the node |
| 84-88 | `hash` (impl<T:Hash> Hash for $ty<T>) | `CmpModel.forest_hash` |
| 98-111 | `fmt` (impl<T:Debug> Debug for $ty<T>) | `DebugModel.node_dbg_`, `RcCmpModel.iter_compare`, `RcDebugModel.rc_dbg_`, `StackModel.fmt_stack`, `StackRcCmpModel.rc_dbg_stack`, `StackRcCmpModel.node_dbg_stack` |
| 115-126 | `fmt` (impl<T:Display> Display for $ty<T>) | `CmpModel.node_fmt_`, `RcCmpModel.iter_compare`, `RcCmpModel.rc_fmt_`, `StackModel.fmt_stack`, `StackRcCmpModel.rc_fmt_stack` |
| 134 | `eq` (impl<T:PartialEq> PartialEq for $ty<T>) | `RcCmpModel.iter_compare`, `RcCmpModel.rc_eq_`, `StackRcCmpModel.rc_eq_stack` |
| 135 | `ne` (impl<T:PartialEq> PartialEq for $ty<T>) | `RcCmpModel.iter_compare`, `RcCmpModel.rc_ne`, `StackRcCmpModel.rc_ne_stack` |
| 141-150 | `partial_cmp` (impl<T:PartialOrd> PartialOrd for $ty<T>) | `CmpModel.node_pcmp_`, `CmpModel.node_cmp_`, `RcCmpModel.iter_compare`, `RcCmpModel.rc_pcmp_`, `StackCmpModel.pcmp_stack`, `StackCmpModel.cmp_stack` … |
| 154-160 | `cmp` (impl<T:Ord> Ord for $ty<T>) | `CmpModel.node_cmp_`, `RcCmpModel.iter_compare`, `RcCmpModel.rc_cmp_`, `StackCmpModel.cmp_stack`, `StackRcCmpModel.rc_cmp_stack` |
| 168-173 | `hash` (impl<T:Hash> Hash for $ty<T>) | `CmpModel.node_hash_`, `RcCmpModel.iter_compare`, `RcCmpModel.rc_hash_`, `StackModel.hash_stack`, `StackRcCmpModel.rc_hash_stack` |
