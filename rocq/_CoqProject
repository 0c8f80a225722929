-Q theories Verif

theories/Util.v
theories/Modular.v
theories/S_Ring.v
theories/S_Tensor.v
theories/M_Torch.v
theories/L_Torch.v
theories/M_Tensor.v
theories/L_Tensor.v
theories/M_Encoder.v
theories/L_Encoder.v
theories/P_Encoder.v
theories/M_Share.v
theories/L_Share.v
theories/P_Share.v
theories/M_Float.v
theories/M_Spdz.v
theories/L_Spdz.v
theories/L_Float.v
theories/S_Wraps.v
theories/L_Div.v
theories/S_Div.v
theories/S_Bil.v
theories/L_Bil.v
theories/L_Mul.v
theories/S_Spdz.v
theories/S_View.v
theories/L_View.v
theories/M_Circuit.v
theories/S_Circuit.v
theories/L_Circuit.v
theories/M_Heap.v
theories/L_Heap.v
theories/S_Priv.v
theories/L_Priv.v
theories/L_Rsub.v
theories/P_Mul.v
theories/P_Div.v
theories/P_Circuit.v
theories/S_Heap.v
theories/M_Session.v
theories/S_Rep.v
theories/S_Session.v
theories/L_Session.v
theories/S_Calls.v
theories/L_Calls.v
theories/P_Session.v
theories/M_Store.v
theories/S_Store.v
theories/L_StoreKey.v
theories/L_Store.v
theories/L_Take.v
theories/L_Replay.v
theories/L_Fss.v
theories/P_Store.v
theories/M_Rep.v
theories/L_RShare.v
theories/S_RepT.v
theories/L_Rep.v
theories/L_Rep2.v
theories/L_Rep3.v
theories/L_Rep4.v
theories/L_Rep5.v
theories/L_Rep6.v
theories/L_Rep7.v
theories/P_Rep.v
theories/M_Aby3.v
theories/L_Aby.v
theories/L_Aby2.v
theories/S_Bits.v
theories/L_Aby3.v
theories/L_Aby4.v
theories/L_Aby5.v
theories/L_Aby6.v
theories/L_Aby7.v
theories/P_Aby.v
theories/M_Fss.v
theories/S_Fss.v
theories/L_Fss2.v
theories/L_Fss3.v
theories/P_Fss.v
theories/M_Engine.v
theories/M_Approx.v
theories/L_Engine.v
theories/S_Sort.v
theories/L_Algo.v
theories/P_Sort.v
theories/S_Real.v
theories/L_Real.v
theories/P_Real.v
theories/M_Parallel.v
theories/P_Parallel.v
theories/M_Static.v
theories/S_Static.v
theories/L_Static.v
theories/P_Static.v
theories/M_Grad.v
theories/L_Grad.v
theories/S_Grad.v
theories/P_Grad.v
theories/M_Optim.v
theories/S_Optim.v
theories/L_Optim.v
theories/P_Optim.v
theories/M_Dtype.v
theories/L_Dtype.v
theories/P_Dtype.v
theories/M_Bits.v
theories/L_Bits.v
theories/P_Bits.v
theories/M_Conv.v
theories/L_Conv.v
theories/P_Conv.v
theories/M_Argmax.v
theories/S_Argmax.v
theories/L_Argmax.v
theories/P_Argmax.v
theories/M_Autograd.v
theories/S_Autograd.v
theories/L_Autograd.v
theories/S_Back.v
theories/L_Back.v
theories/L_Back2.v
theories/P_Autograd.v
theories/P_Deriv.v
theories/M_Pool.v
theories/S_Pool.v
theories/L_Pool.v
theories/L_Pool2.v
theories/L_Pool3.v
theories/P_Pool.v
theories/M_RCircuit.v
theories/S_RCircuit.v
theories/L_RCircuit.v
theories/P_RCircuit.v
theories/M_Module.v
theories/S_Module.v
theories/L_Module.v
theories/L_Module2.v
theories/P_Module.v
theories/M_Loss.v
theories/P_Loss.v
theories/M_Softmax.v
theories/L_Softmax.v
theories/S_Softmax.v
theories/L_Log.v
theories/P_Softmax.v
theories/M_GradConv.v
theories/S_GradConv.v
theories/L_GradConv.v
theories/P_GradConv.v
theories/S_Float.v
theories/L_Float2.v
theories/P_Float.v
theories/S_Sigmoid.v
theories/M_GradFun.v
theories/L_Sigmoid.v
theories/P_Sigmoid.v
theories/M_RepView.v
theories/S_RepView.v
theories/L_RepView.v
theories/L_RepView2.v
theories/P_RepView.v
theories/S_Fixed.v
theories/L_Fixed.v
theories/L_Fixed2.v
theories/L_FixedR.v
theories/L_FixedN.v
theories/L_Fixed3.v
theories/L_Fixed4.v
theories/P_Fixed.v
theories/M_Series.v
theories/L_Series.v
theories/P_Series.v
theories/M_ShareObj.v
theories/L_ShareObj.v
theories/P_ShareObj.v
theories/M_Copy.v
theories/P_Copy.v
theories/M_Attr.v
theories/P_Attr.v
theories/L_FixedSort.v
theories/P_FixedSort.v
theories/L_ArgmaxF.v
theories/P_ArgmaxF.v
theories/M_Opened.v
theories/S_Opened.v
theories/L_Opened.v
theories/L_OpenedDiv.v
theories/P_Opened.v
theories/S_RepPriv.v
theories/L_RepPriv.v
theories/P_RepPriv.v
theories/S_Draw.v
theories/L_Draw.v
theories/P_Draw.v
theories/L_FixedExp.v
theories/L_FixedSoft.v
theories/P_FixedSoft.v
theories/L_FixedLog.v
theories/P_FixedLog.v
theories/M_RepEngine.v
theories/L_RepEngine.v
theories/P_RepEngine.v
theories/M_RepDtype.v
theories/L_RepDtype.v
theories/P_RepDtype.v
theories/M_RepNN.v
theories/L_RepNN.v
theories/S_RepNN.v
theories/P_RepNN.v
theories/S_RepPriv2.v
theories/L_RepPriv2.v
theories/P_RepPriv2.v
theories/M_EncObj.v
theories/P_EncObj.v
theories/P_ShareObj2.v
theories/P_RepObj.v
theories/P_Params.v
theories/S_Flow.v
theories/L_Flow.v
theories/M_Program.v
theories/L_Program.v
theories/S_Program.v
theories/P_Flow.v
theories/S_FixProg.v
theories/L_FixProg.v
theories/L_FixProg2.v
theories/P_FixProg.v
theories/P_FixProg2.v
theories/P_Shape.v
theories/M_Shape.v
theories/S_Shape.v
theories/S_RFixProg.v
theories/L_RFixProg.v
theories/P_RFixProg.v
theories/L_RPow.v
theories/L_Log2.v
theories/P_RepEngine2.v
theories/M_RepObj.v
theories/P_RepRead.v
theories/L_Mac.v
theories/L_Aliter.v
theories/P_AutogradOff.v
theories/L_Log3.v
