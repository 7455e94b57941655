-Q theories Verif
theories/Wiring_Model.v
theories/Wiring_Spec.v
theories/Wiring_Proof.v
theories/Wiring_Props.v
theories/Ports_Model.v
theories/Ports_Spec.v
theories/Ports_Proof.v
theories/Ports_Props.v
theories/PortsPref_Props.v
theories/Names_Model.v
theories/Names_Spec.v
theories/Names_Proof.v
theories/Names_Props.v
theories/NamesChars_Props.v
theories/LB_Model.v
theories/LB_Spec.v
theories/LB_Proof.v
theories/LB_Props.v
theories/Retry_Model.v
theories/Retry_Spec.v
theories/Retry_Proof.v
theories/Retry_Props.v
theories/Timeout_Model.v
theories/Timeout_Spec.v
theories/Timeout_Proof.v
theories/Timeout_Props.v
theories/Copy_Model.v
theories/Copy_Spec.v
theories/Copy_Proof.v
theories/Copy_Props.v
theories/Cache_Model.v
theories/Cache_Spec.v
theories/Cache_Proof.v
theories/Cache_Props.v
theories/Queue_Model.v
theories/Queue_Spec.v
theories/Queue_Proof.v
theories/Queue_Props.v
theories/Pool_Model.v
theories/Pool_Spec.v
theories/Pool_Proof.v
theories/Pool_Props.v
theories/Registry_Model.v
theories/Registry_Spec.v
theories/Registry_Proof.v
theories/Registry_Props.v
theories/Workload_Model.v
theories/Workload_Spec.v
theories/Workload_Proof.v
theories/Workload_Props.v
theories/Filter_Model.v
theories/Filter_Spec.v
theories/Filter_Proof.v
theories/Filter_Props.v
theories/Update_Model.v
theories/Update_Spec.v
theories/Update_Proof.v
theories/Update_Props.v
theories/FilterSame_Props.v
theories/QueryReject_Props.v
theories/Coll_Model.v
theories/Coll_Spec.v
theories/Coll_Proof.v
theories/Coll_Props.v
theories/RunNS_Model.v
theories/RunNS_Spec.v
theories/RunNS_Proof.v
theories/RunNS_Props.v
theories/Conf_Model.v
theories/Conf_Spec.v
theories/Conf_Proof.v
theories/Conf_Props.v
theories/NS_Model.v
theories/NS_Spec.v
theories/NS_Proof.v
theories/NS_Edges.v
theories/NS_Queue.v
theories/NS_Props.v
theories/Pointer_Model.v
theories/Pointer_Spec.v
theories/Pointer_Proof.v
theories/Pointer_Props.v
theories/PointerMore_Props.v
theories/Unique_Model.v
theories/Unique_Spec.v
theories/Unique_Proof.v
theories/Unique_Props.v
theories/IRBuild_Model.v
theories/IRBuild_Spec.v
theories/IRBuild_Proof.v
theories/IRBuild_Props.v
theories/Imports_Model.v
theories/Imports_Spec.v
theories/Imports_Proof.v
theories/Imports_Props.v
theories/ImportsMore_Props.v
theories/Workspace_Model.v
theories/Workspace_Spec.v
theories/Workspace_Proof.v
theories/Workspace_Props.v
theories/NsBuild_Model.v
theories/NsBuild_Spec.v
theories/NsBuild_Proof.v
theories/NsBuild_Props.v
theories/WrapGen_Model.v
theories/WrapGen_Spec.v
theories/WrapGen_Proof.v
theories/WrapGen_Props.v
theories/Env_Model.v
theories/Env_Spec.v
theories/Env_Proof.v
theories/Env_Props.v
theories/Compose_Model.v
theories/Compose_Spec.v
theories/Compose_Proof.v
theories/Compose_Props.v
theories/Kube_Model.v
theories/Kube_Spec.v
theories/Kube_Proof.v
theories/Kube_Props.v
theories/RunSh_Model.v
theories/RunSh_Spec.v
theories/RunSh_Proof.v
theories/RunSh_Props.v
theories/WiringOpts_Spec.v
theories/WiringOpts_Proof.v
theories/WiringOpts_Props.v
theories/Cmd_Model.v
theories/Cmd_Spec.v
theories/Cmd_Proof.v
theories/Cmd_Props.v
theories/Rpc_Model.v
theories/Rpc_Spec.v
theories/Rpc_Proof.v
theories/Rpc_Props.v
theories/RpcCall_Model.v
theories/RpcCall_Spec.v
theories/RpcCall_Proof.v
theories/RpcCall_Props.v
theories/GoSrc_Model.v
theories/GoSrc_Spec.v
theories/GoSrc_Proof.v
theories/GoSrc_Props.v
theories/WfSpec_Model.v
theories/WfSpec_Spec.v
theories/WfSpec_Proof.v
theories/WfSpec_Props.v
theories/ModSet_Model.v
theories/ModSet_Spec.v
theories/ModSet_Proof.v
theories/ModSet_Props.v
theories/NetCache_Model.v
theories/NetCache_Spec.v
theories/NetCache_Proof.v
theories/NetCache_Props.v
theories/NetQueue_Model.v
theories/NetQueue_Spec.v
theories/NetQueue_Proof.v
theories/NetQueue_Props.v
theories/Trace_Model.v
theories/Trace_Spec.v
theories/Trace_Proof.v
theories/Trace_Props.v
theories/GoVec_Model.v
theories/GoVec_Spec.v
theories/GoVec_Proof.v
theories/GoVec_Props.v
theories/XTrace_Model.v
theories/XTrace_Spec.v
theories/XTrace_Proof.v
theories/XTrace_Props.v
theories/Deploy_Model.v
theories/Deploy_Spec.v
theories/Deploy_Proof.v
theories/Deploy_Props.v
theories/Cart_Model.v
theories/Cart_Spec.v
theories/Cart_Proof.v
theories/Cart_Props.v
theories/Order_Model.v
theories/Order_Spec.v
theories/Order_Proof.v
theories/Order_Props.v
theories/Image_Model.v
theories/Image_Spec.v
theories/Image_Proof.v
theories/Image_Props.v
theories/Breaker_Model.v
theories/Breaker_Spec.v
theories/Breaker_Proof.v
theories/Breaker_Props.v
theories/Mongo_Model.v
theories/Mongo_Spec.v
theories/Mongo_Proof.v
theories/Mongo_Props.v
theories/GoTests_Model.v
theories/GoTests_Spec.v
theories/GoTests_Proof.v
theories/GoTests_Props.v
theories/Hotel_Model.v
theories/Hotel_Spec.v
theories/Hotel_Proof.v
theories/Hotel_Props.v
theories/UniqueId_Model.v
theories/UniqueId_Spec.v
theories/UniqueId_Proof.v
theories/UniqueId_Props.v
theories/JsonNum_Model.v
theories/JsonNum_Proof.v
theories/SocialGraph_Model.v
theories/SocialGraph_Spec.v
theories/SocialGraph_Proof.v
theories/SocialGraph_Props.v
theories/WrapStack_Model.v
theories/WrapStack_Spec.v
theories/WrapStack_Proof.v
theories/WrapStack_Props.v
theories/Replica_Model.v
theories/Replica_Spec.v
theories/Replica_Proof.v
theories/Replica_Props.v
theories/Users_Model.v
theories/Users_Spec.v
theories/Users_Proof.v
theories/Users_Props.v
theories/HomeTL_Model.v
theories/HomeTL_Spec.v
theories/HomeTL_Proof.v
theories/HomeTL_Props.v
theories/ShopUsers_Model.v
theories/ShopUsers_Spec.v
theories/ShopUsers_Proof.v
theories/ShopUsers_Props.v
theories/Catalogue_Model.v
theories/Catalogue_Spec.v
theories/Catalogue_Proof.v
theories/Catalogue_Props.v
theories/Posts_Model.v
theories/Posts_Spec.v
theories/Posts_Proof.v
theories/Posts_Props.v
theories/UserTL_Model.v
theories/UserTL_Spec.v
theories/UserTL_Proof.v
theories/UserTL_Props.v
theories/Links_Model.v
theories/Links_Spec.v
theories/Links_Proof.v
theories/Links_Props.v
theories/Mention_Model.v
theories/Mention_Spec.v
theories/Mention_Proof.v
theories/Mention_Props.v
theories/NewPost_Model.v
theories/NewPost_Spec.v
theories/NewPost_Proof.v
theories/NewPost_Props.v
theories/HotelInfo_Model.v
theories/HotelInfo_Spec.v
theories/HotelInfo_Proof.v
theories/HotelInfo_Props.v
